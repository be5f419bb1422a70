(** Proofs about GetSequenceIds and SequenceRange. *)
From Verif Require Import Base BaseProofs EncodingModel EncodingSpec EncodingProofs SliceModel SliceProofs SliceOpsModel SliceOpsSpec SliceOpsProofs
  SequenceIdsModel SequenceIdsSpec.
Open Scope Z_scope.

Lemma zrange_length n : forall a, length (zrange n a) = n.
Proof. induction n as [|n IH]; intros a; [reflexivity|]. cbn. now rewrite IH. Qed.
Lemma zrange_In n : forall a x, In x (zrange n a) <-> a <= x < a + Z.of_nat n.
Proof.
  induction n as [|n IH]; intros a x; cbn [zrange In]; [lia|]. rewrite IH. lia.
Qed.

(** One turn puts one element too many. *)
Definition put (l : list Z) (id : Z) (a n : nat) : list Z := firstn a l ++ repeat id n ++ id :: skipn (a + n) l.

Lemma seq_step_ok grow (M : mem (A:=Z)) s id a n : valid M s -> 0 <= a -> (0 < n)%nat -> (Z.to_nat a + n <= slen s)%nat ->
  exists M' s', seq_step grow (M, s) id (zrange n a) = Ok (M', s') /\ valid M' s' /\ sread M' s' = put (sread M s) id (Z.to_nat a) n.
Proof.
  intros V Ha Hn Hb. destruct n as [|n]; [lia|]. cbn [seq_step zrange].
  assert (HL : last (a :: zrange n (a + 1)) a = a + Z.of_nat n).
  { pose proof (zrange_last (S n) a ltac:(lia)) as X. cbn [zrange] in X.
    replace (last (a :: zrange n (a + 1)) a) with (last (a :: zrange n (a + 1)) 0); [rewrite X; lia|].
    clear. generalize a at 1 3. induction (zrange n (a + 1)) as [|y l IH]; intros x; [reflexivity|].
    change (last (y :: l) 0 = last (y :: l) a). apply IH. }
  rewrite HL. pose proof V as (V1 & V2 & V3).
  replace ((a <? 0) || (Z.of_nat (scap s) <? a) || (a + Z.of_nat n <? 0) || (Z.of_nat (slen s) <? a + Z.of_nat n)) with false by lia.
  assert (Lr : length (a :: zrange n (a + 1)) = S n) by (cbn [length]; now rewrite zrange_length). rewrite Lr.
  assert (Lp : length (repeat id (S n)) = S n) by apply repeat_length.
  destruct (append_upto 0 grow M s (Z.to_nat a) (repeat id (S n)) V ltac:(lia)) as (R1 & R2 & _).
  pose proof (append_in_place 0 grow M s (Z.to_nat a) (repeat id (S n)) V ltac:(lia) ltac:(lia)) as P.
  assert (Vs : valid (fst (append 0 grow M (upto s (Z.to_nat a)) (repeat id (S n)))) s).
  { destruct (append_read 0 grow M (upto s (Z.to_nat a)) (repeat id (S n))) as (_ & _ & _ & _ & _ & _ & X); [apply (valid_upto grow); auto; lia|auto]. }
  destruct (append 0 grow M (upto s (Z.to_nat a)) (repeat id (S n))) as [M1 s1]. cbn [fst snd] in *.
  pose proof (sread_len M s V) as L.
  rewrite Lp in P. rewrite firstn_all2 in P by (rewrite !app_length, firstn_length, Lp, skipn_length; lia).
  assert (E : sread M1 (from s (Z.to_nat (a + Z.of_nat n))) = id :: skipn (Z.to_nat a + S n) (sread M s)).
  { rewrite (sread_from grow) by (auto; lia). rewrite P. rewrite skipn_app, skipn_all2 by (rewrite firstn_length; lia). rewrite firstn_length.
    cbn [app]. replace (Z.to_nat (a + Z.of_nat n) - Nat.min (Z.to_nat a) (length (sread M s)))%nat with n by lia.
    replace (repeat id (S n)) with (repeat id n ++ [id]) by (rewrite <- repeat_cons; reflexivity).
    rewrite <- app_assoc, skipn_app, skipn_all2 by (rewrite repeat_length; lia). rewrite repeat_length, Nat.sub_diag. reflexivity. }
  destruct (append_read 0 grow M1 s1 (sread M1 (from s (Z.to_nat (a + Z.of_nat n)))) R1) as (Q1 & Q2 & _).
  rewrite E in *. destruct (append 0 grow M1 s1 (id :: skipn (Z.to_nat a + S n) (sread M s))) as [M2 s2]. cbn [fst snd] in *.
  exists M2, s2. split; [reflexivity|]. split; [exact Q1|]. rewrite Q2, R2. unfold put. now rewrite <- app_assoc.
Qed.

Lemma put_length l id a n : (a + n <= length l)%nat -> length (put l id a n) = S (length l).
Proof. intros H. unfold put. rewrite !app_length, firstn_length, repeat_length. cbn [length]. rewrite skipn_length. lia. Qed.
Lemma put_before l id a n p : (p < a)%nat -> (a <= length l)%nat -> nth p (put l id a n) 0 = nth p l 0.
Proof.
  intros H H1. unfold put. rewrite app_nth1 by (rewrite firstn_length; lia). now rewrite (nth_firstn_lt (fun x => x)).
Qed.
Lemma put_inside l id a n p : (a <= p < a + n)%nat -> (a + n <= length l)%nat -> nth p (put l id a n) 0 = id.
Proof.
  intros H H1. unfold put. rewrite app_nth2 by (rewrite firstn_length; lia). rewrite firstn_length, app_nth1 by (rewrite repeat_length; lia).
  set (q := (p - _)%nat). assert (Hq : (q < n)%nat) by (unfold q; lia). clearbody q. clear - Hq. revert q Hq. induction n as [|n IH]; intros q Hq; [lia|].
  destruct q; [reflexivity|]. apply IH. lia.
Qed.

Lemma seq_loop_ok grow (e : Encoding) m : seq_ranges e = Some m ->
  forall k i (M : mem (A:=Z)) s,
  (forall j, 0 <= j < Z.of_nat (i + k) ->
     exists a n, aget Z.eqb j m = Some (zrange n a) /\ 0 <= a /\ (0 < n)%nat /\ a + Z.of_nat n <= enc_len e) ->
  valid M s -> (length (sread M s) = length (ids e) + i)%nat ->
  exists M' s', seq_loop grow k m (M, s) (Z.of_nat i) = Ok (M', s') /\ (length (sread M' s') = length (ids e) + i + k)%nat /\
    (in_order e ->
     (forall j p, 0 <= j < Z.of_nat i -> in_sequence e p j -> nth (Z.to_nat p) (sread M s) 0 = j) ->
     forall j p, 0 <= j < Z.of_nat (i + k) -> in_sequence e p j -> nth (Z.to_nat p) (sread M' s') 0 = j).
Proof.
  intros Hm. induction k as [|k IH]; intros i M s Hj V L; cbn [seq_loop].
  - exists M, s. split; [reflexivity|]. split; [lia|]. intros _ H j p Hjj. apply H. lia.
  - destruct (Hj (Z.of_nat i) ltac:(lia)) as (a & n & E & Ha & Hn & Hb). rewrite E. unfold enc_len, zlen in Hb.
    assert (Ls : slen s = (length (ids e) + i)%nat) by (rewrite <- L; symmetry; now apply sread_len).
    destruct (seq_step_ok grow M s (Z.of_nat i) a n V Ha Hn ltac:(lia)) as (M1 & s1 & R1 & R2 & R3). rewrite R1. cbn [bind].
    assert (L1 : (length (sread M1 s1) = length (ids e) + S i)%nat) by (rewrite R3, put_length; lia).
    replace (Z.of_nat i + 1) with (Z.of_nat (S i)) by lia.
    destruct (IH (S i) M1 s1) as (M2 & s2 & Q1 & Q2 & Q3); [intros j Hjj; apply Hj; lia|exact R2|exact L1|].
    exists M2, s2. split; [exact Q1|]. split; [lia|]. intros Ho H j p Hjj Hp. apply Q3; [exact Ho| |lia|exact Hp].
    clear j p Hjj Hp. intros j p Hjj Hp. rewrite R3.
    assert (Hin : forall q, a <= q < a + Z.of_nat n -> in_sequence e q (Z.of_nat i)).
    { intros q Hq. exists (zrange n a). split; [unfold range_of; now rewrite Hm|]. now apply zrange_In. }
    destruct (Z.eq_dec j (Z.of_nat i)) as [->|D].
    + destruct Hp as (r & Hr & Hp). unfold range_of in Hr. rewrite Hm, E in Hr. injection Hr as <-. apply zrange_In in Hp. apply put_inside; lia.
    + assert (B : p < a) by (apply (Ho j (Z.of_nat i) p a); [lia|exact Hp|apply Hin; lia]).
      destruct (Hj j ltac:(lia)) as (a' & n' & E' & Ha' & _). pose proof Hp as (r & Hr & Hp'). unfold range_of in Hr. rewrite Hm, E' in Hr.
      injection Hr as <-. apply zrange_In in Hp'. rewrite put_before by lia. apply H; [lia|exact Hp].
Qed.

Lemma n_sequences_cons e m : seq_ranges e = Some m -> m <> [] -> n_sequences e = length m.
Proof. intros H Ne. unfold n_sequences. rewrite H. destruct m; [congruence|reflexivity]. Qed.

Lemma get_sequence_ids_ok grow e : numbered e ->
  exists l, get_sequence_ids grow e = Ok l /\ (length l = length (ids e) + n_sequences e)%nat /\
    (in_order e -> forall k p, 0 <= k < Z.of_nat (n_sequences e) -> in_sequence e p k -> nth (Z.to_nat p) l 0 = k).
Proof.
  intros ((m & Hm & Ne) & H). unfold get_sequence_ids. rewrite Hm.
  destruct (seq_loop_ok grow e m Hm (n_sequences e) 0 [repeat 0 (length (ids e))] (mkS 0 0 (length (ids e)) (length (ids e)))) as (M & s & R1 & R2 & R3).
  - intros j Hj. destruct (H j ltac:(lia)) as (a & n & E & X). unfold range_of in E. rewrite Hm in E. eauto.
  - unfold valid. cbn. rewrite repeat_length. lia.
  - unfold sread. cbn. rewrite firstn_length, repeat_length. lia.
  - change (make 0 [] (length (ids e))) with (([repeat 0 (length (ids e))] : mem (A:=Z)), mkS 0 0 (length (ids e)) (length (ids e))).
    change (Z.of_nat 0) with 0 in R1. rewrite R1. cbn [bind fst snd]. exists (sread M s). split; [reflexivity|]. split; [lia|].
    intros Ho k p Hk. apply R3; auto. intros. lia.
Qed.

Lemma get_sequence_ids_none grow e : seq_ranges e = None \/ seq_ranges e = Some [] -> get_sequence_ids grow e = Panic.
Proof. intros [H|H]; unfold get_sequence_ids, n_sequences; rewrite H; reflexivity. Qed.

Lemma sequence_range_short spare e k r : range_of e k = Some r -> zlen r < enc_len e ->
  forall x, sequence_range spare e k <> Ok r /\ (sequence_range spare e k = Ok x -> x <> r /\ zlen x = enc_len e).
Proof.
  intros H L x. unfold range_of in H. unfold sequence_range. destruct (seq_ranges e) as [m|]; [|discriminate H]. rewrite H.
  destruct (Z.ltb_spec (zlen (r ++ spare k)) (enc_len e)) as [B|B]; [split; [intros X; discriminate X|intros X; discriminate X]|].
  unfold zlen, enc_len in *. assert (Lx : length (firstn (length (ids e)) (r ++ spare k)) = length (ids e)) by (rewrite firstn_length; unfold zlen in *; lia).
  assert (D : firstn (length (ids e)) (r ++ spare k) <> r) by (intros X; rewrite X in Lx; unfold zlen in *; lia).
  split; [intros X; injection X as X; contradiction|]. intros X. injection X as <-. split; [exact D|]. unfold zlen. lia.
Qed.
Lemma sequence_range_whole spare e k r : range_of e k = Some r -> zlen r = enc_len e -> sequence_range spare e k = Ok r.
Proof.
  intros H L. unfold range_of in H. unfold sequence_range. destruct (seq_ranges e) as [m|]; [|discriminate H]. rewrite H.
  unfold zlen, enc_len, zlen in *. rewrite app_length. replace (Z.of_nat (length r + length (spare k)) <? Z.of_nat (length (ids e))) with false by lia.
  rewrite firstn_app. replace (length (ids e) - length r)%nat with 0%nat by lia. rewrite firstn_all2 by lia. cbn. now rewrite app_nil_r.
Qed.
