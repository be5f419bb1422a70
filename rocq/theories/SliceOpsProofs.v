(** Proofs about the slice helpers. *)
From Coq Require Import Permutation Sorted.
From Verif Require Import Base BaseProofs EncodingProofs SliceModel SliceProofs SliceOpsModel SliceOpsSpec.
Open Scope nat_scope.

Lemma skipn_skipn' {A} (a b : nat) (l : list A) : skipn a (skipn b l) = skipn (a + b) l.
Proof. revert l. induction b as [|b IH]; intros l; [now rewrite Nat.add_0_r|]. rewrite Nat.add_succ_r. destruct l; [now rewrite !skipn_nil|]. apply IH. Qed.

Section Proofs.
  Context {A : Type}.
  Variable zero : A.
  Variable grow : nat -> nat.
  Notation mem := (mem (A:=A)).
  Notation append := (append zero grow).

  Lemma store_firstn (l xs : list A) : forall i, i + length xs <= length l ->
    store l i xs = firstn i l ++ xs ++ skipn (i + length xs) l.
  Proof.
    revert l. induction xs as [|x xs IH]; intros l i H; cbn [store length app] in *.
    - rewrite Nat.add_0_r. now rewrite firstn_skipn.
    - rewrite IH by (rewrite upd_length; lia).
      assert (U : SliceModel.upd l i x = firstn i l ++ x :: skipn (S i) l).
      { clear IH. revert i H. induction l as [|y l IHl]; intros i H; [cbn in H; lia|]. destruct i as [|i]; [reflexivity|].
        cbn [SliceModel.upd firstn skipn app]. f_equal. apply IHl. cbn in H. lia. }
      rewrite U. assert (Lf : length (firstn i l) = i) by (rewrite firstn_length; lia).
      replace (S i) with (length (firstn i l) + 1) at 1 by lia. rewrite firstn_app_2. cbn [firstn app].
      replace (S i + length xs) with (length (firstn i l) + S (length xs)) at 1 by lia. rewrite skipn_app.
      rewrite skipn_all2 by lia. replace (length (firstn i l) + S (length xs) - length (firstn i l)) with (S (length xs)) by lia.
      rewrite <- app_assoc. cbn [app]. do 3 f_equal. change (skipn (S (length xs)) (x :: skipn (S i) l)) with (skipn (length xs) (skipn (S i) l)).
      rewrite skipn_skipn'. f_equal. lia.
  Qed.
  Lemma upd_nth_same (l : mem) i x : i < length l -> nth i (SliceModel.upd l i x) [] = x.
  Proof. intros H. rewrite nth_upd. replace (i =? i) with true by lia. now replace (i <? length l) with true by lia. Qed.
  Lemma upd_nth_other (l : mem) i j x : j <> i -> nth j (SliceModel.upd l i x) [] = nth j l [].
  Proof. intros H. rewrite nth_upd. now replace (j =? i) with false by lia. Qed.

  Lemma sread_len (M : mem) s : valid M s -> length (sread M s) = slen s.
  Proof. intros (V1 & V2 & V3). unfold sread. rewrite firstn_length, skipn_length. lia. Qed.

  Lemma frame_grown (M : mem) x : keeps M (M ++ [x]).
  Proof.
    intros t (V1 & V2 & V3). unfold valid, sread. rewrite app_length, app_nth1 by lia. cbn. repeat split; auto; lia.
  Qed.
  Lemma frame_upd (M : mem) k x : length x = length (nth k M []) -> frame k M (SliceModel.upd M k x).
  Proof.
    intros L t (V1 & V2 & V3) H. unfold valid, sread. rewrite upd_length, upd_nth_other by exact H. repeat split; auto.
  Qed.
  Lemma valid_upd (M : mem) k x t : k < length M -> length x = length (nth k M []) -> valid M t -> valid (SliceModel.upd M k x) t.
  Proof.
    intros Hk L (V1 & V2 & V3). unfold valid. rewrite upd_length. repeat split; auto.
    destruct (Nat.eq_dec (sarr t) k) as [E|H]; [rewrite E in *; rewrite upd_nth_same by exact Hk; lia|now rewrite upd_nth_other].
  Qed.
  Lemma keeps_frame (M M' : mem) k : keeps M M' -> frame k M M'.
  Proof. intros K t V _. now apply K. Qed.
  Lemma keeps_trans (M1 M2 M3 : mem) : keeps M1 M2 -> keeps M2 M3 -> keeps M1 M3.
  Proof. intros K1 K2 t V. destruct (K1 t V) as [V2 E2]. destruct (K2 t V2) as [V3 E3]. split; [exact V3|congruence]. Qed.
  Lemma frame_trans k (M1 M2 M3 : mem) : frame k M1 M2 -> frame k M2 M3 -> frame k M1 M3.
  Proof. intros K1 K2 t V H. destruct (K1 t V H) as [V2 E2]. destruct (K2 t V2 H) as [V3 E3]. split; [exact V3|congruence]. Qed.

  (** append. *)
  Lemma append_read (M : mem) s xs : valid M s ->
    let M' := fst (append M s xs) in let s' := snd (append M s xs) in
    valid M' s' /\ sread M' s' = sread M s ++ xs /\ frame (sarr s) M M' /\
    (scap s < slen s + length xs -> keeps M M') /\
    (slen s + length xs <= scap s -> forall t, valid M t -> sarr t = sarr s ->
       soff t + slen t <= soff s + slen s \/ soff s + slen s + length xs <= soff t -> sread M' t = sread M t) /\
    length M <= length M' /\ (forall t, valid M t -> valid M' t).
  Proof.
    intros V. destruct V as (V1 & V2 & V3). unfold SliceModel.append.
    destruct (Nat.leb_spec (slen s + length xs) (scap s)) as [Le|Gt]; cbn [fst snd].
    - set (arr := nth (sarr s) M []) in *.
      assert (St : store arr (soff s + slen s) xs = firstn (soff s + slen s) arr ++ xs ++ skipn (soff s + slen s + length xs) arr)
        by (apply store_firstn; lia).
      split; [|split; [|split; [|split; [lia|split; [|split]]]]].
      + unfold valid. cbn [sarr slen scap soff]. rewrite upd_length, upd_nth_same, store_length by exact V1. fold arr. lia.
      + unfold sread. cbn [sarr slen soff]. rewrite upd_nth_same by exact V1. fold arr. rewrite St.
        rewrite skipn_app. rewrite firstn_length. replace (soff s - Nat.min (soff s + slen s) (length arr)) with 0 by lia.
        cbn [skipn]. rewrite skipn_firstn_comm. replace (soff s + slen s - soff s) with (slen s) by lia.
        set (X := firstn (slen s) (skipn (soff s) arr)). assert (LX : length X = slen s).
        { unfold X. rewrite firstn_length, skipn_length. lia. }
        rewrite firstn_app, LX. rewrite firstn_all2 by lia. f_equal. replace (slen s + length xs - slen s) with (length xs) by lia.
        rewrite firstn_app, firstn_all2, Nat.sub_diag by lia. cbn [firstn]. now rewrite app_nil_r.
      + apply frame_upd. apply store_length.
      + intros _ t (T1 & T2 & T3) Ea D. unfold sread. rewrite Ea in *. rewrite upd_nth_same by exact V1. fold arr in T3 |- *. rewrite St.
        destruct D as [D|D].
        * rewrite skipn_app, firstn_app, skipn_length, !firstn_length.
          replace (slen t - (Nat.min (soff s + slen s) (length arr) - soff t)) with 0 by lia. cbn [firstn]. rewrite app_nil_r.
          rewrite skipn_firstn_comm, firstn_firstn. f_equal. lia.
        * rewrite app_assoc, skipn_app, app_length, firstn_length. rewrite skipn_all2 by (rewrite app_length, firstn_length; lia).
          cbn [app]. rewrite skipn_skipn'. do 2 f_equal. lia.
      + rewrite upd_length. lia.
      + intros t Vt. apply valid_upd; auto. apply store_length.
    - set (X := sread M s). assert (LX : length X = slen s) by (apply sread_len; repeat split; auto).
      split; [|split; [|split; [|split; [|split; [lia|split]]]]].
      + unfold valid. cbn [sarr slen scap soff]. rewrite app_length, app_nth2, Nat.sub_diag by lia. cbn [length nth].
        rewrite !app_length, repeat_length. lia.
      + unfold sread at 1. cbn [sarr slen soff]. rewrite app_nth2, Nat.sub_diag by lia. cbn [nth skipn].
        rewrite app_assoc, firstn_app, app_length, LX, firstn_all2, Nat.sub_diag by (rewrite app_length; lia).
        cbn [firstn]. apply app_nil_r.
      + apply keeps_frame, frame_grown.
      + intros _. apply frame_grown.
      + rewrite app_length. lia.
      + intros t Vt. now apply frame_grown.
  Qed.

  (** Parts of a slice. *)
  Lemma valid_reslice (M : mem) a i j : valid M a -> i <= j -> j <= scap a -> valid M (reslice a i j).
  Proof. intros (V1 & V2 & V3) H1 H2. unfold valid, reslice. cbn [sarr slen scap soff]. lia. Qed.
  Lemma sread_reslice (M : mem) a i j : i <= j -> j <= slen a -> sread M (reslice a i j) = firstn (j - i) (skipn i (sread M a)).
  Proof.
    intros H1 H2. unfold sread, reslice. cbn [sarr slen soff]. rewrite skipn_firstn_comm, firstn_firstn, skipn_skipn'.
    f_equal; [lia|]. f_equal. lia.
  Qed.
  Lemma sread_upto (M : mem) a i : i <= slen a -> sread M (upto a i) = firstn i (sread M a).
  Proof. intros H. unfold upto. rewrite sread_reslice by lia. cbn [skipn]. now rewrite Nat.sub_0_r. Qed.
  Lemma sread_from (M : mem) a i : valid M a -> i <= slen a -> sread M (from a i) = skipn i (sread M a).
  Proof.
    intros V H. unfold from. rewrite sread_reslice by lia. apply firstn_all2. rewrite skipn_length, sread_len by exact V. lia.
  Qed.
  Lemma valid_upto (M : mem) a i : valid M a -> i <= slen a -> valid M (upto a i).
  Proof. intros V H. destruct V as (V1 & V2 & V3). apply valid_reslice; [repeat split; auto| |]; lia. Qed.
  Lemma valid_from (M : mem) a i : valid M a -> i <= slen a -> valid M (from a i).
  Proof. intros V H. destruct V as (V1 & V2 & V3). apply valid_reslice; [repeat split; auto| |]; lia. Qed.

  (** *** Results *)
  Lemma append_upto (M : mem) a i xs : valid M a -> i <= slen a ->
    valid (fst (append M (upto a i) xs)) (snd (append M (upto a i) xs)) /\
    sread (fst (append M (upto a i) xs)) (snd (append M (upto a i) xs)) = firstn i (sread M a) ++ xs /\
    frame (sarr a) M (fst (append M (upto a i) xs)).
  Proof.
    intros V H. destruct (append_read M (upto a i) xs (valid_upto M a i V H)) as (R1 & R2 & R3 & _).
    rewrite sread_upto in R2 by exact H. auto.
  Qed.

  Lemma copy_ok (M : mem) a : valid M a ->
    valid (fst (copy zero grow M a)) (snd (copy zero grow M a)) /\
    sread (fst (copy zero grow M a)) (snd (copy zero grow M a)) = sread M a /\
    keeps M (fst (copy zero grow M a)) /\
    (slen a <> 0 -> sarr (snd (copy zero grow M a)) = length M).
  Proof.
    intros V. pose proof (sread_len M a V) as L. unfold copy. set (z := mkS (sarr a) (soff a) 0 0).
    assert (Vz : valid M z) by (destruct V as (V1 & V2 & V3); repeat split; cbn; lia).
    destruct (append_read M z (sread M a) Vz) as (R1 & R2 & R3 & R4 & R5 & _).
    split; [exact R1|]. split; [exact R2|]. cbn [slen scap z] in R4, R5. rewrite L in R4, R5. split.
    - destruct (Nat.eq_dec (slen a) 0) as [E|E]; [|apply R4; lia].
      assert (X : sread M a = []) by (destruct (sread M a); [reflexivity|cbn in L; lia]).
      unfold SliceModel.append. rewrite X. cbn [slen z length Nat.add scap Nat.leb store fst]. intros t Vt.
      rewrite upd_same. auto.
    - intros E. unfold SliceModel.append. cbn [slen z scap]. rewrite L. replace (0 + slen a <=? 0) with false by lia. reflexivity.
  Qed.

  Lemma cut_ok low (M : mem) a (i j : Z) : valid M a -> (0 <= i <= j)%Z -> (j <= Z.of_nat (slen a))%Z -> (low <= 0)%Z ->
    exists M' r, cut zero grow low M a i j = Ok (M', r) /\ valid M' r /\
      sread M' r = firstn (Z.to_nat i) (sread M a) ++ skipn (Z.to_nat j) (sread M a) /\ frame (sarr a) M M'.
  Proof.
    intros V H1 H2 H3. unfold cut.
    replace ((i <? low) || (Z.of_nat (slen a) <? i) || (j <? low) || (Z.of_nat (slen a) <? j) || (j <? i))%Z with false by lia.
    replace (i <? 0)%Z with false by lia.
    destruct (append_upto M a (Z.to_nat i) (sread M (from a (Z.to_nat j)))) as (R1 & R2 & R3); [exact V|lia|].
    destruct (append M (upto a (Z.to_nat i)) (sread M (from a (Z.to_nat j)))) as [M' r]. exists M', r. cbn [fst snd] in *.
    rewrite R2, sread_from by (auto; lia). auto.
  Qed.
  Lemma delete_ok (M : mem) a (i : Z) : valid M a -> (0 <= i < Z.of_nat (slen a))%Z ->
    exists M' r, delete zero grow M a i = Ok (M', r) /\ valid M' r /\
      sread M' r = firstn (Z.to_nat i) (sread M a) ++ skipn (S (Z.to_nat i)) (sread M a) /\ frame (sarr a) M M'.
  Proof.
    intros V H. unfold delete. replace ((i <? 0) || (Z.of_nat (slen a) <? i))%Z with false by lia.
    replace (Z.of_nat (slen a) <? i + 1)%Z with false by lia.
    destruct (append_upto M a (Z.to_nat i) (sread M (from a (Z.to_nat i + 1)))) as (R1 & R2 & R3); [exact V|lia|].
    destruct (append M (upto a (Z.to_nat i)) _) as [M' r]. exists M', r. cbn [fst snd] in *.
    rewrite R2, sread_from by (auto; lia). rewrite Nat.add_1_r. auto.
  Qed.
  Lemma delete_end (M : mem) a : delete zero grow M a (Z.of_nat (slen a)) = Panic.
  Proof. unfold delete. replace ((Z.of_nat (slen a) <? 0) || _)%Z with false by lia. now replace (Z.of_nat (slen a) <? Z.of_nat (slen a) + 1)%Z with true by lia. Qed.
  Lemma cut_negative (M : mem) a (j : Z) : (-1 <= j <= Z.of_nat (slen a))%Z -> cut zero grow (-1) M a (-1) j = Panic.
  Proof.
    intros H. unfold cut. replace ((-1 <? -1) || (Z.of_nat (slen a) <? -1) || (j <? -1) || (Z.of_nat (slen a) <? j) || (j <? -1))%Z with false by lia.
    reflexivity.
  Qed.

  (** Putting a new list in front of a tail, then behind a head. *)
  Lemma nested_append (M M1 : mem) z a i l : valid M a -> i <= slen a -> keeps M M1 -> valid M1 z -> sarr z = length M ->
    sread M1 z = l ->
    let b := append M1 z (sread M1 (from a i)) in
    let r := append (fst b) (upto a i) (sread (fst b) (snd b)) in
    valid (fst r) (snd r) /\ sread (fst r) (snd r) = firstn i (sread M a) ++ l ++ skipn i (sread M a) /\ frame (sarr a) M (fst r).
  Proof.
    intros V Hi K Vz Hz Hl b r. destruct (K a V) as [Va Ea].
    destruct (append_read M1 z (sread M1 (from a i)) Vz) as (R1 & R2 & R3 & _). fold b in R1, R2, R3.
    assert (Hn : sarr a <> sarr z) by (destruct V as (V1 & _); lia).
    destruct (R3 a Va Hn) as [Vb Eb].
    destruct (append_upto (fst b) a i (sread (fst b) (snd b)) Vb Hi) as (Q1 & Q2 & Q3). fold r in Q1, Q2, Q3.
    split; [exact Q1|]. split.
    - rewrite Q2, Eb, R2, Ea, Hl, sread_from by (auto; lia). now rewrite Ea.
    - intros t Vt Ht. destruct (K t Vt) as [T1 E1].
      assert (sarr t <> sarr z) by (destruct Vt as (X & _); lia).
      destruct (R3 t T1 H) as [T2 E2]. destruct (Q3 t T2 Ht) as [T3 E3]. split; [exact T3|congruence].
  Qed.
  Lemma literal_valid (M : mem) l : valid (fst (literal M l)) (snd (literal M l)) /\ sread (fst (literal M l)) (snd (literal M l)) = l /\
    keeps M (fst (literal M l)) /\ sarr (snd (literal M l)) = length M.
  Proof.
    cbn [literal fst snd]. split; [|split; [|split; [apply frame_grown|reflexivity]]].
    - unfold valid. cbn [sarr slen scap soff]. rewrite app_length, app_nth2, Nat.sub_diag by lia. cbn. lia.
    - unfold sread. cbn [sarr slen soff]. rewrite app_nth2, Nat.sub_diag by lia. cbn [nth skipn]. apply firstn_all.
  Qed.

  Lemma insert_ok (M : mem) a x (i : Z) : valid M a -> (0 <= i <= Z.of_nat (slen a))%Z ->
    exists M' r, insert zero grow M a x i = Ok (M', r) /\ valid M' r /\
      sread M' r = firstn (Z.to_nat i) (sread M a) ++ x :: skipn (Z.to_nat i) (sread M a) /\ frame (sarr a) M M'.
  Proof.
    intros V H. unfold insert. replace ((i <? 0) || (Z.of_nat (slen a) <? i))%Z with false by lia.
    destruct (literal_valid M [x]) as (L1 & L2 & L3 & L4). destruct (literal M [x]) as [M1 z]. cbn [fst snd] in *.
    pose proof (nested_append M M1 z a (Z.to_nat i) [x] V ltac:(lia) L3 L1 L4 L2) as N. cbn zeta in N.
    destruct (append M1 z (sread M1 (from a (Z.to_nat i)))) as [M2 b]. cbn [fst snd] in N.
    destruct (append M2 (upto a (Z.to_nat i)) (sread M2 b)) as [M3 r]. cbn [fst snd] in N. exists M3, r. tauto.
  Qed.
  Lemma expand_ok (M : mem) a (i j : Z) : valid M a -> (0 <= i <= j)%Z -> (j <= Z.of_nat (slen a))%Z ->
    exists M' r, expand zero grow M a i j = Ok (M', r) /\ valid M' r /\
      sread M' r = firstn (Z.to_nat i) (sread M a) ++ repeat zero (Z.to_nat j) ++ skipn (Z.to_nat i) (sread M a) /\ frame (sarr a) M M'.
  Proof.
    intros V H1 H2. unfold expand.
    replace ((i <? 0) || (Z.of_nat (slen a) <? i) || (j <? 0) || (Z.of_nat (slen a) <? j) || (j <? i))%Z with false by lia.
    pose proof (literal_valid M (repeat zero (Z.to_nat j))) as L.
    assert (E : literal M (repeat zero (Z.to_nat j)) = make zero M (Z.to_nat j)) by (unfold literal, make; now rewrite repeat_length).
    rewrite E in L. destruct L as (L1 & L2 & L3 & L4). destruct (make zero M (Z.to_nat j)) as [M1 z]. cbn [fst snd] in *.
    pose proof (nested_append M M1 z a (Z.to_nat i) _ V ltac:(lia) L3 L1 L4 L2) as N. cbn zeta in N.
    destruct (append M1 z (sread M1 (from a (Z.to_nat i)))) as [M2 b]. cbn [fst snd] in N.
    destruct (append M2 (upto a (Z.to_nat i)) (sread M2 b)) as [M3 r]. cbn [fst snd] in N. exists M3, r. tauto.
  Qed.
  Lemma extend_ok (M : mem) a (n : Z) : valid M a -> (0 < n)%Z ->
    exists M' r, extend zero grow M a n = Ok (M', r) /\ valid M' r /\ sread M' r = sread M a ++ repeat zero (Z.to_nat n) /\ frame (sarr a) M M'.
  Proof.
    intros V H. unfold extend. replace (n <=? 0)%Z with false by lia.
    destruct (append_read M a (repeat zero (Z.to_nat n)) V) as (R1 & R2 & R3 & _).
    destruct (append M a (repeat zero (Z.to_nat n))) as [M' r]. exists M', r. auto.
  Qed.
  Lemma insert_vec_ok (M : mem) a b (i : Z) : valid M a -> valid M b -> sarr a <> sarr b -> (0 <= i <= Z.of_nat (slen a))%Z ->
    exists M' r, insert_vec zero grow M a b i = Ok (M', r) /\ valid M' r /\
      sread M' r = firstn (Z.to_nat i) (sread M a) ++ sread M b ++ skipn (Z.to_nat i) (sread M a).
  Proof.
    intros Va Vb Hn H. unfold insert_vec. replace ((i <? 0) || (Z.of_nat (slen a) <? i))%Z with false by lia.
    destruct (append_read M b (sread M (from a (Z.to_nat i))) Vb) as (R1 & R2 & R3 & _).
    destruct (append M b (sread M (from a (Z.to_nat i)))) as [M1 c]. cbn [fst snd] in *.
    destruct (R3 a Va Hn) as [Va1 Ea1].
    destruct (append_upto M1 a (Z.to_nat i) (sread M1 c) Va1 ltac:(lia)) as (Q1 & Q2 & _).
    destruct (append M1 (upto a (Z.to_nat i)) (sread M1 c)) as [M2 r]. exists M2, r. cbn [fst snd] in *.
    split; [reflexivity|]. split; [exact Q1|]. rewrite Q2, Ea1, R2, sread_from by (auto; lia). reflexivity.
  Qed.
  Lemma push_ok (M : mem) a x : valid M a -> let r := push zero grow M a x in
    valid (fst r) (snd r) /\ sread (fst r) (snd r) = sread M a ++ [x] /\ frame (sarr a) M (fst r).
  Proof. intros V. destruct (append_read M a [x] V) as (R1 & R2 & R3 & _). auto. Qed.
  Lemma push_front_ok (M : mem) a x : valid M a -> let r := push_front zero grow M a x in
    valid (fst r) (snd r) /\ sread (fst r) (snd r) = x :: sread M a /\ keeps M (fst r).
  Proof.
    intros V. unfold push_front. destruct (literal_valid M [x]) as (L1 & L2 & L3 & L4). destruct (literal M [x]) as [M1 z]. cbn [fst snd] in *.
    destruct (append_read M1 z (sread M1 a) L1) as (R1 & R2 & R3 & _).
    split; [exact R1|]. split; [rewrite R2, L2; cbn; f_equal; now apply L3|].
    intros t Vt. destruct (L3 t Vt) as [T1 E1]. destruct (R3 t T1) as [T2 E2]; [destruct Vt as (X & _); lia|]. split; [exact T2|congruence].
  Qed.

  (** The second slice may lie in the first one. *)
  Lemma insert_vec_alias (M : mem) a x y z l : valid M a -> sread M a = x :: y :: z :: l ->
    exists M' r, insert_vec zero grow M a (upto a 1) 2 = Ok (M', r) /\ sread M' r = x :: z :: x :: z :: l.
  Proof.
    intros V E. assert (L : slen a = 3 + length l) by (rewrite <- (sread_len M a V), E; reflexivity).
    unfold insert_vec. replace ((2 <? 0) || (Z.of_nat (slen a) <? 2))%Z with false by lia. change (Z.to_nat 2) with 2.
    assert (V1 : valid M (upto a 1)) by (apply valid_upto; [exact V|lia]).
    assert (Ef : sread M (from a 2) = z :: l) by (rewrite sread_from, E by (auto; lia); reflexivity).
    destruct (append_read M (upto a 1) (sread M (from a 2)) V1) as (R1 & R2 & R3 & _ & _ & _ & R6).
    rewrite Ef in *. rewrite sread_upto, E in R2 by lia. cbn [firstn app] in R2.
    assert (Hc : snd (append M (upto a 1) (z :: l)) = upto (mkS (sarr a) (soff a) (slen a) (scap a)) (2 + length l)).
    { unfold SliceModel.append. destruct V as (_ & V2 & _). cbn [slen scap upto reslice length].
      replace (1 - 0 + S (length l) <=? scap a - 0) with true by lia. cbn [snd sarr soff upto reslice]. unfold upto, reslice. cbn [sarr soff scap].
      f_equal; lia. }
    destruct (append M (upto a 1) (z :: l)) as [M1 c]. cbn [fst snd] in *. specialize (R6 a V).
    destruct (append_upto M1 a 2 (sread M1 c) R6 ltac:(lia)) as (Q1 & Q2 & _).
    destruct (append M1 (upto a 2) (sread M1 c)) as [M2 r]. cbn [fst snd] in *. exists M2, r. split; [reflexivity|].
    rewrite Q2, R2. rewrite Hc in R2. replace (mkS (sarr a) (soff a) (slen a) (scap a)) with a in R2 by now destruct a.
    rewrite sread_upto in R2 by lia. pose proof (f_equal (firstn 2) R2) as F. rewrite firstn_firstn in F. replace (Nat.min 2 (2 + length l)) with 2 in F by lia.
    rewrite F. reflexivity.
  Qed.

  (** Reading and writing one element. *)
  Lemma nth_skipn_add (l : list A) i j d : nth j (skipn i l) d = nth (i + j) l d.
  Proof. revert l. induction i as [|i IH]; intros l; [reflexivity|]. destruct l; [now destruct j|]. cbn [skipn Nat.add nth]. apply IH. Qed.
  Lemma nth_firstn_lt (l : list A) n j d : j < n -> nth j (firstn n l) d = nth j l d.
  Proof. revert n l. induction j as [|j IH]; intros [|n] l H; try lia; destruct l; cbn; auto. apply IH. lia. Qed.
  Lemma get_read (M : mem) a i : i < slen a -> get_at zero M a i = nth i (sread M a) zero.
  Proof. intros H. unfold sread. rewrite nth_firstn_lt by exact H. rewrite nth_skipn_add. reflexivity. Qed.

  Lemma upd_app (l : list A) i x : i < length l -> SliceModel.upd l i x = firstn i l ++ x :: skipn (S i) l.
  Proof.
    revert i. induction l as [|y l IHl]; intros i H; [cbn in H; lia|]. destruct i as [|i]; [reflexivity|].
    cbn [SliceModel.upd firstn skipn app]. f_equal. apply IHl. cbn in H. lia.
  Qed.
  Lemma upd_app1 (l q : list A) i x : i < length l -> SliceModel.upd (l ++ q) i x = SliceModel.upd l i x ++ q.
  Proof.
    revert i. induction l as [|y l IHl]; intros i H; [cbn in H; lia|]. destruct i as [|i]; [reflexivity|].
    cbn [SliceModel.upd app]. f_equal. apply IHl. cbn in H. lia.
  Qed.
  Lemma list_nth_ext (l l' : list A) : length l = length l' -> (forall i, i < length l -> nth i l zero = nth i l' zero) -> l = l'.
  Proof.
    revert l'. induction l as [|x l IH]; intros [|y l'] L H; cbn in L; try lia; [reflexivity|]. f_equal.
    - apply (H 0). cbn. lia.
    - apply IH; [lia|]. intros i Hi. apply (H (S i)). cbn. lia.
  Qed.
  Lemma set_read (M : mem) a i x : valid M a -> i < slen a ->
    valid (set_at M a i x) a /\ sread (set_at M a i x) a = SliceModel.upd (sread M a) i x /\ frame (sarr a) M (set_at M a i x).
  Proof.
    intros V H. pose proof V as (V1 & V2 & V3). unfold set_at.
    assert (Va : valid (SliceModel.upd M (sarr a) (SliceModel.upd (nth (sarr a) M []) (soff a + i) x)) a)
      by (apply valid_upd; auto using upd_length).
    split; [exact Va|]. split; [|apply frame_upd, upd_length].
    apply list_nth_ext; [rewrite upd_length, !sread_len by auto; reflexivity|].
    intros j Hj. rewrite sread_len in Hj by exact Va. rewrite nth_upd, sread_len by exact V.
    unfold sread. rewrite !nth_firstn_lt by exact Hj. rewrite !nth_skipn_add. rewrite upd_nth_same by exact V1. rewrite nth_upd.
    replace (soff a + j =? soff a + i) with (j =? i) by lia.
    replace (soff a + i <? length (nth (sarr a) M [])) with true by lia. now replace (i <? slen a) with true by lia.
  Qed.

  Lemma pop_ok (M : mem) a l x : valid M a -> sread M a = l ++ [x] ->
    exists r, pop zero M a = Ok (x, r) /\ valid M r /\ sread M r = l.
  Proof.
    intros V E. assert (L : slen a = S (length l)) by (rewrite <- (sread_len M a V), E, app_length; cbn; lia).
    unfold pop. rewrite L. exists (upto a (length l)). split; [|split].
    - assert (G : nth (length l) (sread M a) zero = x) by (rewrite E, app_nth2, Nat.sub_diag by lia; reflexivity).
      rewrite get_read by lia. now rewrite G.
    - apply valid_upto; [exact V|lia].
    - rewrite sread_upto, E, firstn_app, Nat.sub_diag, firstn_all by lia. cbn. apply app_nil_r.
  Qed.
  Lemma pop_front_ok (M : mem) a l x : valid M a -> sread M a = x :: l ->
    exists r, pop_front zero M a = Ok (x, r) /\ valid M r /\ sread M r = l.
  Proof.
    intros V E. assert (L : slen a = S (length l)) by (rewrite <- (sread_len M a V), E; reflexivity).
    unfold pop_front. rewrite L. exists (from a 1). split; [|split].
    - rewrite get_read by lia. now rewrite E.
    - apply valid_from; [exact V|lia].
    - rewrite sread_from, E by (auto; lia). reflexivity.
  Qed.

  (** What the argument shows after an append in place. *)
  Lemma append_in_place (M : mem) a i xs : valid M a -> i <= slen a -> i + length xs <= scap a ->
    sread (fst (append M (upto a i) xs)) a = firstn (slen a) (firstn i (sread M a) ++ xs ++ skipn (i + length xs) (sread M a)).
  Proof.
    intros V Hi Hc. pose proof V as (V1 & V2 & V3). unfold SliceModel.append. cbn [slen scap upto reslice sarr soff].
    replace (i - 0 + length xs <=? scap a - 0) with true by lia. cbn [fst]. unfold sread. rewrite upd_nth_same by exact V1.
    set (arr := nth (sarr a) M []) in *. replace (soff a + 0 + (i - 0)) with (soff a + i) by lia.
    rewrite store_firstn by lia. rewrite skipn_app, firstn_length. replace (soff a - Nat.min (soff a + i) (length arr)) with 0 by lia. cbn [skipn].
    rewrite skipn_firstn_comm. replace (soff a + i - soff a) with i by lia.
    set (l := firstn (slen a) (skipn (soff a) arr)).
    replace (firstn i l) with (firstn i (skipn (soff a) arr)) by (unfold l; rewrite firstn_firstn; f_equal; lia).
    replace (skipn (soff a + i + length xs) arr) with (skipn (i + length xs) (skipn (soff a) arr)) by (rewrite skipn_skipn'; f_equal; lia).
    rewrite !app_assoc, !(firstn_app (slen a)). f_equal. unfold l. rewrite skipn_firstn_comm, app_length, firstn_length, skipn_length.
    rewrite firstn_firstn. f_equal. lia.
  Qed.
  Lemma insert_argument (M : mem) a x (i : Z) : valid M a -> (0 <= i <= Z.of_nat (slen a))%Z -> slen a < scap a ->
    exists M' r, insert zero grow M a x i = Ok (M', r) /\
      sread M' a = firstn (slen a) (firstn (Z.to_nat i) (sread M a) ++ x :: skipn (Z.to_nat i) (sread M a)).
  Proof.
    intros V H Hc. unfold insert. replace ((i <? 0) || (Z.of_nat (slen a) <? i))%Z with false by lia.
    destruct (literal_valid M [x]) as (L1 & L2 & L3 & L4). destruct (literal M [x]) as [M1 z]. cbn [fst snd] in *.
    destruct (L3 a V) as [Va Ea].
    destruct (append_read M1 z (sread M1 (from a (Z.to_nat i))) L1) as (R1 & R2 & R3 & _).
    destruct (append M1 z (sread M1 (from a (Z.to_nat i)))) as [M2 b]. cbn [fst snd] in *.
    destruct (R3 a Va) as [Vb Eb]; [destruct V as (X & _); lia|].
    pose proof (sread_len M a V) as L.
    assert (Eq : sread M2 b = x :: skipn (Z.to_nat i) (sread M a)) by (rewrite R2, L2, sread_from, Ea by (auto; lia); reflexivity).
    assert (Lq : length (sread M2 b) = S (slen a - Z.to_nat i)) by (rewrite Eq; cbn [length]; rewrite skipn_length; lia).
    pose proof (append_in_place M2 a (Z.to_nat i) (sread M2 b) Vb ltac:(lia) ltac:(lia)) as P.
    destruct (append M2 (upto a (Z.to_nat i)) (sread M2 b)) as [M3 r]. cbn [fst] in P. exists M3, r. split; [reflexivity|].
    rewrite P, Eb, Ea, Lq, Eq. rewrite (skipn_all2 (n := Z.to_nat i + S (slen a - Z.to_nat i)) (sread M a)) by lia. rewrite app_nil_r. reflexivity.
  Qed.
  Lemma insert_full (M : mem) a x (i : Z) : valid M a -> (0 <= i <= Z.of_nat (slen a))%Z -> scap a = slen a ->
    exists M' r, insert zero grow M a x i = Ok (M', r) /\ keeps M M'.
  Proof.
    intros V H Hc. unfold insert. replace ((i <? 0) || (Z.of_nat (slen a) <? i))%Z with false by lia.
    destruct (literal_valid M [x]) as (L1 & L2 & L3 & L4). destruct (literal M [x]) as [M1 z]. cbn [fst snd] in *.
    destruct (L3 a V) as [Va Ea].
    destruct (append_read M1 z (sread M1 (from a (Z.to_nat i))) L1) as (R1 & R2 & R3 & _).
    destruct (append M1 z (sread M1 (from a (Z.to_nat i)))) as [M2 b]. cbn [fst snd] in *.
    destruct (R3 a Va) as [Vb Eb]; [destruct V as (X & _); lia|].
    pose proof (sread_len M a V) as L.
    assert (Lq : length (sread M2 b) = S (slen a - Z.to_nat i)).
    { rewrite R2, L2, sread_from, Ea by (auto; lia). cbn [app length]. rewrite skipn_length. lia. }
    destruct (append_read M2 (upto a (Z.to_nat i)) (sread M2 b) (valid_upto M2 a (Z.to_nat i) Vb ltac:(lia))) as (_ & _ & _ & Q & _).
    destruct (append M2 (upto a (Z.to_nat i)) (sread M2 b)) as [M3 r]. cbn [fst] in Q. exists M3, r. split; [reflexivity|].
    intros t Vt. destruct (L3 t Vt) as [T1 E1]. destruct (R3 t T1) as [T2 E2]; [destruct Vt as (X & _); lia|].
    destruct (Q ltac:(unfold upto, reslice; cbn [slen scap]; lia) t T2) as [T3 E3]. split; [exact T3|congruence].
  Qed.
  Lemma delete_argument (M : mem) a (i : nat) p x q y : valid M a -> sread M a = p ++ x :: q ++ [y] -> i = length p ->
    exists M' r, delete zero grow M a (Z.of_nat i) = Ok (M', r) /\ sread M' a = p ++ q ++ [y; y].
  Proof.
    intros V E ->. pose proof (sread_len M a V) as L. rewrite E in L. rewrite !app_length in L. cbn [length] in L. rewrite app_length in L. cbn [length] in L.
    unfold delete. replace ((Z.of_nat (length p) <? 0) || (Z.of_nat (slen a) <? Z.of_nat (length p)))%Z with false by lia.
    replace (Z.of_nat (slen a) <? Z.of_nat (length p) + 1)%Z with false by lia. rewrite Nat2Z.id.
    assert (Ef : sread M (from a (length p + 1)) = q ++ [y]).
    { rewrite sread_from, E by (auto; lia). rewrite skipn_app, skipn_all2 by lia. replace (length p + 1 - length p) with 1 by lia. reflexivity. }
    rewrite Ef. pose proof V as (_ & V2 & _).
    pose proof (append_in_place M a (length p) (q ++ [y]) V ltac:(lia) ltac:(rewrite app_length; cbn [length]; lia)) as P.
    destruct (append M (upto a (length p)) (q ++ [y])) as [M' r]. cbn [fst] in P. exists M', r. split; [reflexivity|].
    rewrite P, E. rewrite (firstn_app (length p) p), firstn_all, Nat.sub_diag. change (firstn 0 (x :: q ++ [y])) with (@nil A). rewrite app_nil_r.
    rewrite (skipn_app _ p), skipn_all2, app_length by lia. cbn [length app].
    replace (length p + (length q + 1) - length p) with (S (length q)) by lia. cbn [skipn].
    rewrite skipn_app, skipn_all, Nat.sub_diag. cbn [skipn app]. rewrite firstn_all2 by (rewrite !app_length; cbn [length]; lia).
    now rewrite <- app_assoc.
  Qed.

  (** Filters. *)
  Lemma filter_loop_ok f : forall (Q : list A) (M : mem) a P n, valid M a -> sread M a = P ++ Q -> n <= length P ->
    exists M' n', filter_loop zero f (length Q) M a (length P) n = (M', n') /\ valid M' a /\ frame (sarr a) M M' /\ n' <= length P + length Q /\
      firstn n' (sread M' a) = firstn n P ++ filter f Q.
  Proof.
    induction Q as [|q Q IH]; intros M a P n V E Hn.
    - exists M, n. cbn [length filter_loop filter]. split; [reflexivity|]. split; [exact V|]. split; [intros t Vt _; auto|]. split; [lia|].
      rewrite E, app_nil_r, app_nil_r. reflexivity.
    - assert (L : slen a = length P + S (length Q)) by (rewrite <- (sread_len M a V), E, app_length; reflexivity).
      cbn [length filter_loop]. rewrite get_read, E by lia. rewrite app_nth2, Nat.sub_diag by lia. cbn [nth filter].
      assert (LP : length (P ++ [q]) = S (length P)) by (rewrite app_length; cbn; lia).
      destruct (f q) eqn:F.
      + destruct (set_read M a n q V ltac:(lia)) as (S1 & S2 & S3).
        assert (E2 : sread (set_at M a n q) a = SliceModel.upd (P ++ [q]) n q ++ Q).
        { rewrite S2, E. change (P ++ q :: Q) with (P ++ [q] ++ Q). rewrite app_assoc. apply upd_app1. lia. }
        destruct (IH (set_at M a n q) a (SliceModel.upd (P ++ [q]) n q) (S n) S1 E2) as (M' & n' & R1 & R2 & R3 & R4 & R5);
          [rewrite upd_length, LP; lia|].
        rewrite upd_length, LP in R1, R4. exists M', n'. split; [exact R1|]. split; [exact R2|].
        split; [eapply frame_trans; eassumption|]. split; [lia|]. rewrite R5. rewrite upd_app by lia.
        rewrite firstn_app, firstn_firstn, firstn_length, LP. replace (Nat.min (S n) n) with n by lia.
        replace (S n - Nat.min n (S (length P))) with 1 by lia. cbn [firstn]. rewrite firstn_app.
        replace (n - length P) with 0 by lia. cbn [firstn]. rewrite app_nil_r, <- app_assoc. reflexivity.
      + destruct (IH M a (P ++ [q]) n V) as (M' & n' & R1 & R2 & R3 & R4 & R5);
          [rewrite E; now rewrite <- app_assoc|lia|]. rewrite LP in R1, R4. exists M', n'. split; [exact R1|]. split; [exact R2|].
        split; [exact R3|]. split; [lia|]. rewrite R5, firstn_app. replace (n - length P) with 0 by lia. cbn [firstn]. now rewrite app_nil_r.
  Qed.
  Lemma filter_in_place_ok f (M : mem) a : valid M a -> let r := filter_in_place zero f M a in
    valid (fst r) (snd r) /\ sread (fst r) (snd r) = filter f (sread M a) /\ frame (sarr a) M (fst r).
  Proof.
    intros V. unfold filter_in_place. pose proof (sread_len M a V) as L.
    destruct (filter_loop_ok f (sread M a) M a [] 0 V eq_refl (le_n _)) as (M' & n' & R1 & R2 & R3 & R4 & R5).
    rewrite L in R1, R4. cbn [length firstn app Nat.add] in *. rewrite R1. cbn [fst snd].
    split; [apply valid_upto; auto|]. split; [rewrite sread_upto by exact R4; exact R5|exact R3].
  Qed.
  Lemma zero_loop_ok k : forall (M : mem) a i, valid M a -> i + k <= slen a ->
    valid (zero_loop zero k M a i) a /\ frame (sarr a) M (zero_loop zero k M a i) /\
    sread (zero_loop zero k M a i) a = firstn i (sread M a) ++ repeat zero k ++ skipn (i + k) (sread M a).
  Proof.
    induction k as [|k IH]; intros M a i V H; cbn [zero_loop repeat app].
    - split; [exact V|]. split; [intros t Vt _; auto|]. now rewrite Nat.add_0_r, firstn_skipn.
    - destruct (set_read M a i zero V ltac:(lia)) as (S1 & S2 & S3). destruct (IH (set_at M a i zero) a (S i) S1 ltac:(lia)) as (R1 & R2 & R3).
      split; [exact R1|]. split; [eapply frame_trans; eassumption|]. rewrite R3, S2. pose proof (sread_len M a V) as L.
      rewrite upd_app by lia. rewrite firstn_app, firstn_firstn, firstn_length, L.
      replace (S i - Nat.min i (slen a)) with 1 by lia. replace (Nat.min (S i) i) with i by lia. cbn [firstn].
      rewrite skipn_app, skipn_all2 by (rewrite firstn_length; lia). rewrite firstn_length, L. cbn [app].
      replace (S i + k - Nat.min i (slen a)) with (S k) by lia.
      change (skipn (S k) (zero :: skipn (S i) (sread M a))) with (skipn k (skipn (S i) (sread M a))).
      rewrite skipn_skipn', <- app_assoc. cbn [app]. do 3 f_equal. f_equal. lia.
  Qed.
  Lemma filter_no_allocate_ok f (M : mem) a : valid M a -> let r := filter_no_allocate zero f M a in
    valid (fst r) (snd r) /\ sread (fst r) (snd r) = filter f (sread M a) /\ frame (sarr a) M (fst r) /\
    sread (fst r) a = filter f (sread M a) ++ repeat zero (slen a - length (filter f (sread M a))).
  Proof.
    intros V. unfold filter_no_allocate. pose proof (sread_len M a V) as L.
    destruct (filter_loop_ok f (sread M a) M a [] 0 V eq_refl (le_n _)) as (M' & n' & R1 & R2 & R3 & R4 & R5).
    rewrite L in R1, R4. cbn [length firstn app Nat.add] in *. rewrite R1. cbn [fst snd].
    destruct (zero_loop_ok (slen a - n') M' a n' R2 ltac:(lia)) as (Z1 & Z2 & Z3).
    assert (Ln : length (filter f (sread M a)) = n') by (rewrite <- R5, firstn_length, sread_len by exact R2; lia).
    assert (E : sread (zero_loop zero (slen a - n') M' a n') a = filter f (sread M a) ++ repeat zero (slen a - n')).
    { rewrite Z3, R5, skipn_all2 by (rewrite sread_len by exact R2; lia). now rewrite app_nil_r. }
    split; [apply valid_upto; auto|]. split; [|split; [eapply frame_trans; eassumption|now rewrite Ln]].
    rewrite sread_upto by exact R4. rewrite E, firstn_app, Ln, Nat.sub_diag, firstn_all2 by lia. cbn. apply app_nil_r.
  Qed.

  (** Swaps. *)
  Lemma swap_ok (M : mem) a i j : valid M a -> i < slen a -> j < slen a ->
    valid (swap zero M a i j) a /\ frame (sarr a) M (swap zero M a i j) /\
    forall k, k < slen a -> nth k (sread (swap zero M a i j) a) zero = nth (if k =? j then i else if k =? i then j else k) (sread M a) zero.
  Proof.
    intros V Hi Hj. unfold swap. rewrite !get_read by assumption.
    destruct (set_read M a i (nth j (sread M a) zero) V Hi) as (S1 & S2 & S3).
    destruct (set_read _ a j (nth i (sread M a) zero) S1 Hj) as (T1 & T2 & T3).
    split; [exact T1|]. split; [eapply frame_trans; eassumption|]. intros k Hk. rewrite T2, S2, !nth_upd, upd_length, sread_len by exact V.
    replace (j <? slen a) with true by lia. replace (i <? slen a) with true by lia. rewrite !andb_true_r || idtac.
    destruct (k =? j); [reflexivity|]. destruct (k =? i); reflexivity.
  Qed.
  Lemma reverse_down_ok k : forall (M : mem) a, valid M a -> 2 * k <= slen a ->
    valid (reverse_down zero k M a) a /\ frame (sarr a) M (reverse_down zero k M a) /\
    forall p, p < slen a -> nth p (sread (reverse_down zero k M a) a) zero =
      nth (if (p <? k) || (slen a - k <=? p) then slen a - 1 - p else p) (sread M a) zero.
  Proof.
    induction k as [|k IH]; intros M a V H; cbn [reverse_down].
    - split; [exact V|]. split; [intros t Vt _; auto|]. intros p Hp. now replace ((p <? 0) || (slen a - 0 <=? p)) with false by lia.
    - destruct (swap_ok M a k (slen a - 1 - k) V ltac:(lia) ltac:(lia)) as (S1 & S2 & S3).
      destruct (IH _ a S1 ltac:(lia)) as (R1 & R2 & R3). split; [exact R1|]. split; [eapply frame_trans; eassumption|].
      intros p Hp. rewrite R3 by exact Hp. destruct ((p <? k) || (slen a - k <=? p)) eqn:E; rewrite S3 by lia; f_equal.
      + replace ((p <? S k) || (slen a - S k <=? p)) with true by lia.
        replace (slen a - 1 - p =? slen a - 1 - k) with false by lia. now replace (slen a - 1 - p =? k) with false by lia.
      + destruct (p =? slen a - 1 - k) eqn:E1; [replace ((p <? S k) || (slen a - S k <=? p)) with true by lia; lia|].
        destruct (p =? k) eqn:E2; [replace ((p <? S k) || (slen a - S k <=? p)) with true by lia; lia|].
        now replace ((p <? S k) || (slen a - S k <=? p)) with false by lia.
  Qed.
  Lemma reverse_up_ok k : forall (M : mem) a l r, valid M a -> l + r + 1 = slen a -> r < l + k ->
    valid (reverse_up zero k M a l r) a /\ frame (sarr a) M (reverse_up zero k M a l r) /\
    forall p, p < slen a -> nth p (sread (reverse_up zero k M a l r) a) zero =
      nth (if (l <=? p) && (p <=? r) then slen a - 1 - p else p) (sread M a) zero.
  Proof.
    induction k as [|k IH]; intros M a l r V H Hk; cbn [reverse_up].
    - split; [exact V|]. split; [intros t Vt _; auto|]. intros p Hp. now replace ((l <=? p) && (p <=? r)) with false by lia.
    - destruct (Nat.ltb_spec l r) as [Lt|Ge].
      + destruct (swap_ok M a l r V ltac:(lia) ltac:(lia)) as (S1 & S2 & S3).
        destruct (IH _ a (S l) (r - 1) S1 ltac:(lia) ltac:(lia)) as (R1 & R2 & R3). split; [exact R1|]. split; [eapply frame_trans; eassumption|].
        intros p Hp. rewrite R3 by exact Hp. destruct ((S l <=? p) && (p <=? r - 1)) eqn:E; rewrite S3 by lia; f_equal.
        * replace ((l <=? p) && (p <=? r)) with true by lia.
          replace (slen a - 1 - p =? r) with false by lia. now replace (slen a - 1 - p =? l) with false by lia.
        * destruct (p =? r) eqn:E1; [replace ((l <=? p) && (p <=? r)) with true by lia; lia|].
          destruct (p =? l) eqn:E2; [replace ((l <=? p) && (p <=? r)) with true by lia; lia|].
          now replace ((l <=? p) && (p <=? r)) with false by lia.
      + split; [exact V|]. split; [intros t Vt _; auto|]. intros p Hp. f_equal.
        destruct ((l <=? p) && (p <=? r)) eqn:E; lia.
  Qed.
  Lemma rev_of_nth (M M' : mem) a : valid M a -> valid M' a ->
    (forall p, p < slen a -> nth p (sread M' a) zero = nth (slen a - 1 - p) (sread M a) zero) -> sread M' a = rev (sread M a).
  Proof.
    intros V V' H. apply list_nth_ext; [now rewrite rev_length, !sread_len|]. intros i Hi. rewrite sread_len in Hi by exact V'.
    rewrite rev_nth by (now rewrite sread_len). rewrite sread_len by exact V. rewrite H by exact Hi. f_equal. lia.
  Qed.
  Lemma reverse_ok (M : mem) a : valid M a -> let r := reverse zero M a in
    valid (fst r) a /\ snd r = a /\ sread (fst r) a = rev (sread M a) /\ frame (sarr a) M (fst r).
  Proof.
    intros V. unfold reverse. cbn [fst snd]. pose proof (Nat.div_mod (slen a) 2 ltac:(lia)) as D. pose proof (Nat.mod_upper_bound (slen a) 2 ltac:(lia)) as U.
    destruct (reverse_down_ok (slen a / 2) M a V ltac:(lia)) as (R1 & R2 & R3). split; [exact R1|]. split; [reflexivity|]. split; [|exact R2].
    apply rev_of_nth; auto. intros p Hp. rewrite R3 by exact Hp. f_equal.
    destruct ((p <? slen a / 2) || (slen a - slen a / 2 <=? p)) eqn:E; lia.
  Qed.
  Lemma reverse_lr_ok (M : mem) a : valid M a -> let r := reverse_lr zero M a in
    valid (fst r) a /\ snd r = a /\ sread (fst r) a = rev (sread M a) /\ frame (sarr a) M (fst r).
  Proof.
    intros V. unfold reverse_lr. cbn [fst snd]. destruct (Nat.eq_dec (slen a) 0) as [E|E].
    - rewrite E. cbn [reverse_up]. pose proof (sread_len M a V) as L. rewrite E in L. destruct (sread M a); [|discriminate L].
      split; [exact V|]. split; [reflexivity|]. split; [reflexivity|]. intros t Vt _. auto.
    - destruct (reverse_up_ok (slen a) M a 0 (slen a - 1) V ltac:(lia) ltac:(lia)) as (R1 & R2 & R3).
      split; [exact R1|]. split; [reflexivity|]. split; [|exact R2]. apply rev_of_nth; auto. intros p Hp. rewrite R3 by exact Hp.
      now replace ((0 <=? p) && (p <=? slen a - 1)) with true by lia.
  Qed.
  Lemma reverse_new_ok (M : mem) a : valid M a -> let r := reverse_new zero M a in
    valid (fst r) (snd r) /\ sread (fst r) (snd r) = rev (sread M a) /\ keeps M (fst r).
  Proof.
    intros V. unfold reverse_new. destruct (literal_valid M (sread M a)) as (L1 & L2 & L3 & L4). destruct (literal M (sread M a)) as [M1 b]. cbn [fst snd] in *.
    destruct (reverse_lr_ok M1 b L1) as (R1 & R2 & R3 & R4). rewrite R2. split; [exact R1|]. split; [now rewrite R3, L2|].
    intros t Vt. destruct (L3 t Vt) as [T1 E1]. destruct (R4 t T1) as [T2 E2]; [destruct Vt as (X & _); lia|]. split; [exact T2|congruence].
  Qed.
  Lemma swap_perm (M : mem) a i j : valid M a -> i < slen a -> j < slen a -> Permutation (sread M a) (sread (swap zero M a i j) a).
  Proof.
    intros V Hi Hj. destruct (swap_ok M a i j V Hi Hj) as (S1 & S2 & S3). apply (Permutation_nth _ _ zero).
    rewrite !sread_len by auto. split; [reflexivity|]. exists (fun k => if k =? j then i else if k =? i then j else k). split; [|split].
    - intros k Hk. destruct (k =? j), (k =? i); auto.
    - intros k k' Hk Hk'. cbn beta. destruct (Nat.eqb_spec k j), (Nat.eqb_spec k' j), (Nat.eqb_spec k i), (Nat.eqb_spec k' i); subst; intros; subst; try lia; auto.
    - intros k Hk. now apply S3.
  Qed.
  Lemma shuffle_ok rnd k : forall (M : mem) a, valid M a -> k < slen a \/ k = 0 -> (forall i, 0 < i -> rnd i < i) ->
    valid (shuffle zero rnd k M a) a /\ frame (sarr a) M (shuffle zero rnd k M a) /\ Permutation (sread M a) (sread (shuffle zero rnd k M a) a).
  Proof.
    induction k as [|k IH]; intros M a V H R; cbn [shuffle].
    - split; [exact V|]. split; [intros t Vt _; auto|apply Permutation_refl].
    - pose proof (R (S (S k)) ltac:(lia)) as B.
      destruct (swap_ok M a (S k) (rnd (S (S k))) V ltac:(lia) ltac:(lia)) as (S1 & S2 & _).
      destruct (IH _ a S1 ltac:(lia) R) as (R1 & R2 & R3). split; [exact R1|]. split; [eapply frame_trans; eassumption|].
      eapply Permutation_trans; [|exact R3]. apply swap_perm; auto; lia.
  Qed.

  (** Merge. *)
  Lemma merge_ok (M : mem) a b : valid M a -> valid M b -> let r := merge zero grow M a b in
    valid (fst r) (snd r) /\ sread (fst r) (snd r) = sread M a ++ sread M b /\ keeps M (fst r).
  Proof.
    intros Va Vb. unfold merge. set (M1 := M ++ _). set (z := mkS _ _ _ _).
    pose proof (sread_len M a Va) as La.
    assert (K : keeps M M1) by apply frame_grown.
    assert (Vz : valid M1 z).
    { unfold valid, z, M1. cbn [sarr slen scap soff]. rewrite app_length, app_nth2, Nat.sub_diag by lia. cbn [nth length].
      rewrite app_length, repeat_length. lia. }
    assert (Ez : sread M1 z = sread M a).
    { unfold sread at 1, z, M1. cbn [sarr slen soff]. rewrite app_nth2, Nat.sub_diag by lia. cbn [nth skipn].
      rewrite firstn_app, La, Nat.sub_diag, firstn_all2 by lia. cbn. apply app_nil_r. }
    destruct (append_read M1 z (sread M1 b) Vz) as (R1 & R2 & R3 & _). split; [exact R1|]. split.
    - rewrite R2, Ez. f_equal. now apply K.
    - intros t Vt. destruct (K t Vt) as [T1 E1]. destruct (R3 t T1) as [T2 E2]; [destruct Vt as (X & _); cbn; lia|]. split; [exact T2|congruence].
  Qed.

  (** Batches. *)
  Lemma batch_loop_ok (M : mem) size : 0 < size -> forall fuel a, valid M a -> slen a <= fuel ->
    exists front back, batch_loop fuel a size = front ++ [back] /\
      concat (map (sread M) (front ++ [back])) = sread M a /\ Forall (valid M) (front ++ [back]) /\
      Forall (fun b => slen b = size /\ scap b = size) front /\ slen back <= size /\ (0 < slen a -> 0 < slen back).
  Proof.
    intros Hs. induction fuel as [|k IH]; intros a V H; cbn [batch_loop].
    - exists [], a. cbn. rewrite app_nil_r. repeat split; auto; lia.
    - destruct (Nat.ltb_spec size (slen a)) as [Lt|Ge].
      + pose proof (valid_from M a size V ltac:(lia)) as Vf.
        destruct (IH (from a size) Vf) as (front & back & R1 & R2 & R3 & R4 & R5 & R6); [unfold from, reslice; cbn; lia|].
        assert (Vh : valid M (mkS (sarr a) (soff a) size size)) by (destruct V as (V1 & V2 & V3); unfold valid; cbn; lia).
        exists (mkS (sarr a) (soff a) size size :: front), back. rewrite R1. split; [reflexivity|]. split.
        * cbn [app map concat]. rewrite R2, sread_from by (auto; lia).
          replace (sread M (mkS (sarr a) (soff a) size size)) with (firstn size (sread M a)); [apply firstn_skipn|].
          unfold sread. cbn [sarr slen soff]. rewrite firstn_firstn. f_equal. lia.
        * split; [constructor; auto|]. split; [constructor; auto|]. split; [exact R5|]. intros _. apply R6. unfold from, reslice. cbn. lia.
      + exists [], a. cbn. rewrite app_nil_r. repeat split; auto.
  Qed.

  (** Duplicates. *)
  Variable eqb : A -> A -> bool.
  Fixpoint uniq_after (x : A) (l : list A) : list A :=
    match l with [] => [] | y :: q => if eqb x y then uniq_after x q else y :: uniq_after y q end.
  Lemma dedup_loop_ok : forall (Q : list A) (M : mem) a P j, valid M a -> sread M a = P ++ Q -> j < length P ->
    exists M' j', dedup_loop zero eqb (length Q) M a (length P) j = (M', j') /\ valid M' a /\ frame (sarr a) M M' /\ j' < length P + length Q /\
      firstn (S j') (sread M' a) = firstn (S j) P ++ uniq_after (nth j P zero) Q.
  Proof.
    induction Q as [|q Q IH]; intros M a P j V E Hj.
    - exists M, j. cbn [length dedup_loop uniq_after]. split; [reflexivity|]. split; [exact V|]. split; [intros t Vt _; auto|]. split; [lia|]. now rewrite E, !app_nil_r.
    - assert (L : slen a = length P + S (length Q)) by (rewrite <- (sread_len M a V), E, app_length; reflexivity).
      cbn [length dedup_loop]. rewrite !get_read, E by lia. rewrite (app_nth2 P _ zero (n := length P)), Nat.sub_diag by lia.
      rewrite (app_nth1 P) by lia. cbn [nth uniq_after].
      assert (LP : length (P ++ [q]) = S (length P)) by (rewrite app_length; cbn; lia).
      destruct (eqb (nth j P zero) q) eqn:F.
      + destruct (IH M a (P ++ [q]) j V) as (M' & j' & R1 & R2 & R3 & R4 & R5); [rewrite E; now rewrite <- app_assoc|lia|].
        rewrite LP in R1, R4. exists M', j'. split; [exact R1|]. split; [exact R2|]. split; [exact R3|]. split; [lia|].
        rewrite R5, firstn_app, app_nth1 by lia. replace (S j - length P) with 0 by lia. cbn [firstn]. now rewrite app_nil_r.
      + destruct (set_read M a (S j) q V ltac:(lia)) as (S1 & S2 & S3).
        assert (E2 : sread (set_at M a (S j) q) a = SliceModel.upd (P ++ [q]) (S j) q ++ Q).
        { rewrite S2, E. change (P ++ q :: Q) with (P ++ [q] ++ Q). rewrite app_assoc. apply upd_app1. lia. }
        destruct (IH _ a (SliceModel.upd (P ++ [q]) (S j) q) (S j) S1 E2) as (M' & j' & R1 & R2 & R3 & R4 & R5); [rewrite upd_length; lia|].
        rewrite upd_length, LP in R1, R4. exists M', j'. split; [exact R1|]. split; [exact R2|]. split; [eapply frame_trans; eassumption|].
        split; [lia|]. rewrite R5, nth_upd. replace (S j =? S j) with true by lia. replace (S j <? length (P ++ [q])) with true by lia.
        rewrite upd_app by lia. rewrite firstn_app, firstn_firstn, firstn_length, LP. replace (Nat.min (S (S j)) (S j)) with (S j) by lia.
        replace (S (S j) - Nat.min (S j) (S (length P))) with 1 by lia. rewrite (firstn_app (S j) P).
        replace (S j - length P) with 0 by lia. change (firstn 0 [q]) with (@nil A). rewrite app_nil_r, <- app_assoc. reflexivity.
  Qed.
  Lemma sort_in_place (M : mem) a l : valid M a -> length l = slen a ->
    let M' := SliceModel.upd M (sarr a) (store (nth (sarr a) M []) (soff a) l) in
    valid M' a /\ sread M' a = l /\ frame (sarr a) M M'.
  Proof.
    intros V L M'. pose proof V as (V1 & V2 & V3). split; [apply valid_upd; auto using store_length|]. split; [|apply frame_upd, store_length].
    unfold sread, M'. rewrite upd_nth_same by exact V1. rewrite store_firstn by lia.
    rewrite skipn_app, firstn_length. rewrite skipn_all2 by (rewrite firstn_length; lia).
    replace (soff a - Nat.min (soff a) (length (nth (sarr a) M []))) with 0 by lia. cbn [app skipn].
    rewrite firstn_app, firstn_all2 by lia. replace (slen a - length l) with 0 by lia. cbn. apply app_nil_r.
  Qed.
  Lemma uniq_after_In (Heq : forall x y, eqb x y = true <-> x = y) l : forall x y, In y (x :: uniq_after x l) <-> In y (x :: l).
  Proof.
    induction l as [|z l IH]; intros x y; [reflexivity|]. cbn [uniq_after]. destruct (eqb x z) eqn:E.
    - apply Heq in E. subst z. rewrite IH. cbn. tauto.
    - specialize (IH z y). cbn [In] in *. tauto.
  Qed.
  Lemma uniq_after_sorted (Heq : forall x y, eqb x y = true <-> x = y) (le : A -> A -> Prop)
    (anti : forall x y, le x y -> le y x -> x = y) (l : list A) : forall x, StronglySorted le (x :: l) ->
    StronglySorted le (x :: uniq_after x l) /\ NoDup (x :: uniq_after x l).
  Proof.
    induction l as [|z l IH]; intros x H; [split; [exact H|constructor; [intros []|constructor]]|].
    cbn [uniq_after]. inversion H as [|? ? H1 H2]; subst. destruct (eqb x z) eqn:E.
    - apply Heq in E. subst z. apply IH. exact H1.
    - assert (D : x <> z) by (intros ->; rewrite (proj2 (Heq z z) eq_refl) in E; discriminate E).
      destruct (IH z H1) as [I1 I2].
      assert (F : Forall (le x) (z :: uniq_after z l)).
      { apply Forall_forall. intros y Hy. apply (proj1 (uniq_after_In Heq l z y)) in Hy. rewrite Forall_forall in H2. now apply H2. }
      split; [constructor; assumption|]. constructor; [|exact I2]. intros X. destruct X as [X|X]; [congruence|].
      (* x occurs behind z: then le z x and le x z *)
      inversion I1 as [|? ? _ B]; subst. rewrite Forall_forall in B. specialize (B x X). apply Forall_inv in F. apply D. now apply anti.
  Qed.
  Lemma dedup_ok (Heq : forall x y, eqb x y = true <-> x = y) (le : A -> A -> Prop) (anti : forall x y, le x y -> le y x -> x = y)
    (sort : list A -> list A) (Hs : forall l, Permutation l (sort l) /\ StronglySorted le (sort l)) (M : mem) a :
    valid M a -> slen a <> 0 ->
    exists M' r, dedup zero eqb sort M a = Ok (M', r) /\ valid M' r /\ NoDup (sread M' r) /\ StronglySorted le (sread M' r) /\
      (forall x, In x (sread M' r) <-> In x (sread M a)) /\ frame (sarr a) M M'.
  Proof.
    intros V Hn. destruct (Hs (sread M a)) as [Pm Ss]. pose proof (sread_len M a V) as L.
    assert (Ls : length (sort (sread M a)) = slen a) by (rewrite <- L; symmetry; now apply Permutation_length).
    destruct (sort_in_place M a _ V Ls) as (S1 & S2 & S3). unfold dedup. set (M1 := SliceModel.upd _ _ _) in *.
    destruct (sort (sread M a)) as [|x q] eqn:E; [cbn in Ls; lia|].
    destruct (dedup_loop_ok q M1 a [x] 0 S1 S2 ltac:(cbn; lia)) as (M2 & j & R1 & R2 & R3 & R4 & R5).
    cbn [length] in R1, R4, Ls. replace (slen a - 1) with (length q) by lia. rewrite R1.
    pose proof R2 as (_ & C2 & _). replace (scap a <? j + 1) with false by lia. exists M2, (upto a (j + 1)). split; [reflexivity|].
    rewrite sread_upto by lia. rewrite Nat.add_1_r, R5. change (firstn 1 [x] ++ uniq_after (nth 0 [x] zero) q) with (x :: uniq_after x q).
    destruct (uniq_after_sorted Heq le anti q x Ss) as [U1 U2].
    split; [apply valid_upto; [exact R2|lia]|]. split; [exact U2|]. split; [exact U1|]. split; [|eapply frame_trans; eassumption].
    intros y. rewrite (uniq_after_In Heq). split; intros Hy; [eapply Permutation_in; [apply Permutation_sym|]; eassumption|eapply Permutation_in; eassumption].
  Qed.
  Lemma dedup_empty (sort : list A -> list A) (Hs : sort [] = []) (M : mem) a : valid M a -> slen a = 0 ->
    dedup zero eqb sort M a = if scap a =? 0 then Panic else Ok (M, upto a 1).
  Proof.
    intros V H. unfold dedup. pose proof (sread_len M a V) as L. rewrite H in L. destruct (sread M a); [|discriminate L]. rewrite Hs. cbn [store].
    rewrite upd_same, H. cbn [Nat.sub dedup_loop]. destruct (Nat.eqb_spec (scap a) 0) as [E|E]; [replace (scap a <? 0 + 1) with true by lia|replace (scap a <? 0 + 1) with false by lia]; reflexivity.
  Qed.
End Proofs.

(** ** Lists *)
Open Scope Z_scope.

Lemma make_range_repeat first last : make_range first last = repeat first (Z.to_nat (last - first)).
Proof. unfold make_range. destruct (Z.eqb_spec last first) as [->|H]; [now rewrite Z.sub_diag|reflexivity]. Qed.

Lemma min_max_fold l : forall lo hi, lo <= hi ->
  let m := fold_left (fun m v => let '(lo, hi) := m in (if v <? lo then v else lo, if hi <? v then v else hi)) l (lo, hi) in
  fst m <= lo /\ hi <= snd m /\ Forall (fun v => fst m <= v <= snd m) l /\ In (fst m) (lo :: l) /\ In (snd m) (hi :: l).
Proof.
  induction l as [|v l IH]; intros lo hi H; cbn [fold_left].
  - cbn. repeat split; auto; lia.
  - set (lo' := if v <? lo then v else lo). set (hi' := if hi <? v then v else hi).
    assert (B1 : lo' <= lo /\ lo' <= v) by (unfold lo'; destruct (Z.ltb_spec v lo); lia).
    assert (B2 : hi <= hi' /\ v <= hi') by (unfold hi'; destruct (Z.ltb_spec hi v); lia).
    destruct (IH lo' hi' ltac:(lia)) as (R1 & R2 & R3 & R4 & R5). cbn zeta in *.
    set (m := fold_left _ l (lo', hi')) in *. repeat split; try lia.
    + constructor; [lia|exact R3].
    + destruct R4 as [R4|R4]; [|cbn; auto]. rewrite <- R4. unfold lo'. destruct (v <? lo); cbn; auto.
    + destruct R5 as [R5|R5]; [|cbn; auto]. rewrite <- R5. unfold hi'. destruct (hi <? v); cbn; auto.
Qed.
Lemma min_max_ok l : l <> [] -> exists lo hi, min_max l = Ok (lo, hi) /\ In lo l /\ In hi l /\ Forall (fun v => lo <= v <= hi) l.
Proof.
  destruct l as [|x l]; [congruence|]. intros _. unfold min_max.
  destruct (min_max_fold (x :: l) x x (Z.le_refl x)) as (_ & _ & R3 & R4 & R5). cbn zeta in *.
  destruct (fold_left _ (x :: l) (x, x)) as [lo hi]. exists lo, hi. cbn [fst snd] in *. split; [reflexivity|].
  split; [destruct R4 as [<-|R4]; [now left|exact R4]|]. split; [destruct R5 as [<-|R5]; [now left|exact R5]|exact R3].
Qed.

Lemma repeat_loop_ok {A} k (x : A) : forall acc, repeat_loop k x acc = acc ++ repeat x k.
Proof. induction k as [|k IH]; intros acc; cbn [repeat_loop repeat]; [now rewrite app_nil_r|]. rewrite IH, <- app_assoc. reflexivity. Qed.
Lemma repeat_item_ok {A} (x : A) n : repeat_item x n = repeat x (Z.to_nat n).
Proof. unfold repeat_item. now rewrite repeat_loop_ok. Qed.

Lemma contains_ok {A} (eqb : A -> A -> bool) (H : forall x y, eqb x y = true <-> x = y) x l : contains eqb x l = true <-> In x l.
Proof.
  unfold contains. rewrite existsb_exists. split.
  - intros (y & Hy & E). apply H in E. now subst.
  - intros Hx. exists x. split; [exact Hx|now apply H].
Qed.

(** ** Iterators *)
Lemma zindex_app {A} (p : list A) x q : zindex (p ++ x :: q) (zlen p) = Ok x.
Proof.
  unfold zindex, zlen.
  replace (0 <=? Z.of_nat (length p)) with true by lia. 
  rewrite Nat2Z.id, nth_error_app2, Nat.sub_diag by lia. reflexivity.
Qed.

Lemma ri_drain_from l : forall p k, (length l < k)%nat ->
  ri_drain k (RI (p ++ l) (if (length l =? 0)%nat then -1 else zlen p)) = Ok (l, RI (p ++ l) (-1)).
Proof.
  induction l as [|x l IH]; intros p k H; (destruct k as [|k]; [cbn in H; lia|]).
  - reflexivity.
  - cbn [length Nat.eqb ri_drain]. unfold ri_step. cbn [ri_next ri_items].
    replace (zlen p =? -1) with false by (unfold zlen; lia). rewrite zindex_app. cbn [bind].
    specialize (IH (p ++ [x]) k). rewrite <- app_assoc in IH. cbn [app] in IH.
    replace (if zlen (p ++ x :: l) <=? zlen p + 1 then -1 else zlen p + 1) with (if (length l =? 0)%nat then -1 else zlen (p ++ [x])).
    + rewrite IH by (cbn in H; lia). reflexivity.
    + unfold zlen. rewrite !app_length. cbn [length]. destruct (Nat.eqb_spec (length l) 0) as [E|E].
      * now replace (Z.of_nat (length p + S (length l)) <=? Z.of_nat (length p) + 1) with true by lia.
      * replace (Z.of_nat (length p + S (length l)) <=? Z.of_nat (length p) + 1) with false by lia. lia.
Qed.
Lemma ri_drain_ok l : ri_drain (S (length l)) (new_rune_iter l) = Ok (l, RI l (-1)).
Proof.
  unfold new_rune_iter. replace (if 0 <? zlen l then 0 else -1) with (if (length l =? 0)%nat then -1 else zlen (@nil N)).
  - exact (ri_drain_from l [] _ (Nat.lt_succ_diag_r _)).
  - destruct l; reflexivity.
Qed.
Lemma it_drain_from {A} (l : list A) : forall p k, (length l < k)%nat -> p <> [] \/ l <> [] ->
  it_drain k (IT A (p ++ l) (zlen p)) = Ok (l, IT A (p ++ l) (zlen (p ++ l))).
Proof.
  induction l as [|x l IH]; intros p k H Hn; (destruct k as [|k]; [cbn in H; lia|]); cbn [it_drain]; unfold it_step; cbn [it_next it_items].
  - rewrite app_nil_r. replace (zlen p <=? zlen p) with true by lia. rewrite orb_true_r. reflexivity.
  - replace ((zlen p =? -1) || (zlen (p ++ x :: l) <=? zlen p)) with false by (unfold zlen; rewrite app_length; cbn [length]; lia).
    rewrite zindex_app. cbn [bind]. specialize (IH (p ++ [x]) k). rewrite <- app_assoc in IH. cbn [app] in IH.
    replace (zlen p + 1) with (zlen (p ++ [x])) by (unfold zlen; rewrite app_length; cbn; lia).
    rewrite IH by (cbn in H; try lia; left; destruct p; discriminate). reflexivity.
Qed.
Lemma it_drain_ok {A} (l : list A) : exists it, it_drain (S (length l)) (new_iter l) = Ok (l, it).
Proof.
  destruct l as [|x l]; [eexists; reflexivity|].
  assert (H : it_drain (S (length (x :: l))) (IT A ([] ++ x :: l) (zlen (@nil A))) = Ok (x :: l, IT A ([] ++ x :: l) (zlen ([] ++ x :: l))))
    by (apply it_drain_from; [lia|right; discriminate]).
  eexists. exact H.
Qed.
