(** C91: the progress shown while a file is downloaded. *)
From Verif Require Import Base ProgressModel ProgressSpec ProgressProofs.
Open Scope N_scope.

(** A number of bytes below 1024 is shown as it is.  Every other number of 64 bits is shown in the largest
    unit that it reaches, in tenths, at least 1.0 and at most 1024.0; up to 2^53 no other number of
    tenths is nearer, and of two that are equally near the even one is shown. *)
Theorem C91_amount_partial : forall to64 b, converts to64 -> b < 2 ^ 64 ->
  (b < 1024 -> byte_count to64 b = Ok (Bytes b)) /\
  (1024 <= b -> exists letter size tenths, In (letter, size) units /\ size <= b < 1024 * size /\
    byte_count to64 b = Ok (Units tenths letter) /\ 10 <= tenths <= 10240 /\
    (b <= 2 ^ 53 -> let off := (2 * Z.abs (Z.of_N tenths * Z.of_N size - 10 * Z.of_N b))%Z in
      (off <= Z.of_N size)%Z /\ (off = Z.of_N size -> N.even tenths = true))).
Proof.
  intros to64 b C H. split.
  - intros L. unfold byte_count. now rewrite (proj2 (N.ltb_lt b 1024) L).
  - intros L. destruct (amount_shown to64 b C L H) as (l & s & t & I & B & E & T & R & _). exists l, s, t. split; [exact I|]. split; [exact B|]. split; [exact E|]. split; [exact T|]. intros Hb. cbv zeta. destruct (R Hb) as [[R1 R2] R3]. split; [nia|]. intros Tie. apply R3. nia.
Qed.
Print Assumptions C91_amount_partial.

(** Refuted: fewer than 1024 units are shown.  From a twentieth below the next unit on, 1024.0 is. *)
Theorem C91_units_refuted : forall to64 b letter size, converts to64 -> In (letter, size) units -> b < 2 ^ 53 ->
  20479 * size <= 20 * b < 20480 * size -> byte_count to64 b = Ok (Units 10240 letter).
Proof.
  intros to64 b l s C I Hb B. assert (S : 1024 <= s) by (cbn in I; repeat (destruct I as [I|I]; [injection I as <- <-; lia|]); contradiction).
  destruct (amount_shown to64 b C ltac:(lia) ltac:(change (2 ^ 64) with 18446744073709551616; change (2 ^ 53) with 9007199254740992 in Hb; lia)) as (l' & s' & t & I' & B' & E & _ & _ & R).
  assert (X : l' = l /\ s' = s).
  { assert (Lt : s <= b < 1024 * s) by lia. clear - I I' B' Lt. cbn in I, I'.
    repeat (destruct I as [I|I]; [injection I as <- <-; repeat (destruct I' as [I'|I']; [injection I' as <- <-; first [split; reflexivity|exfalso; lia]|]); contradiction|]). contradiction. }
  destruct X as [-> ->]. rewrite E. now rewrite (R Hb ltac:(lia)).
Qed.
Print Assumptions C91_units_refuted.

(** The total shown after some writes is the number of bytes of these writes, modulo 2^64. *)
Theorem C91_totals : forall ps k, (k < length ps)%nat ->
  nth_error (totals 0 ps) k = Some (sent (firstn (S k) ps) mod 2 ^ 64) /\
  (sent (firstn (S k) ps) < 2 ^ 64 -> nth_error (totals 0 ps) k = Some (sent (firstn (S k) ps))).
Proof.
  intros ps k H. rewrite (total_after ps 0 ltac:(reflexivity) k H), N.add_0_l. split; [reflexivity|]. intros L. now rewrite N.mod_small.
Qed.
Print Assumptions C91_totals.

(** * Examples *)

(** A conversion as asked for: to 53 digits, the rest cut off. *)
Definition cut64 (n : N) : N := if n <=? 2 ^ 53 then n else let k := N.log2 n - 52 in n / 2 ^ k * 2 ^ k.
Lemma cut64_converts : converts cut64.
Proof.
  assert (Lo : forall n, 2 ^ 53 < n -> 53 <= N.log2 n /\ 2 ^ N.log2 n <= cut64 n <= n).
  { intros n H. assert (P : 0 < n) by lia. destruct (N.log2_spec n P) as [L1 L2]. assert (K : 53 <= N.log2 n) by (apply N.log2_le_pow2; lia). split; [exact K|].
    unfold cut64. rewrite (proj2 (N.leb_gt _ _)) by exact H. cbv zeta. set (k := N.log2 n - 52). assert (Pk : 2 ^ k <> 0) by (apply N.pow_nonzero; lia).
    split; [|rewrite N.mul_comm; now apply N.mul_div_le]. assert (E : 2 ^ N.log2 n = 2 ^ 52 * 2 ^ k) by (rewrite <- N.pow_add_r; f_equal; unfold k; lia).
    rewrite E. apply N.mul_le_mono_r. apply N.div_le_lower_bound; [exact Pk|]. rewrite N.mul_comm, <- E. exact L1. }
  split; [|split].
  - intros n H. unfold cut64. now rewrite (proj2 (N.leb_le _ _)).
  - intros k. destruct (N.le_gt_cases (2 ^ k) (2 ^ 53)) as [H|H]; [unfold cut64; now rewrite (proj2 (N.leb_le _ _))|]. destruct (Lo _ H) as (_ & L1 & L2). rewrite N.log2_pow2 in L1 by lia. lia.
  - intros a b H. destruct (N.le_gt_cases b (2 ^ 53)) as [Hb|Hb]; [unfold cut64; rewrite !(proj2 (N.leb_le _ _)) by lia; exact H|]. destruct (Lo b Hb) as (Kb & Lb & Ub).
    destruct (N.le_gt_cases a (2 ^ 53)) as [Ha|Ha].
    + assert (Ea : cut64 a = a) by (unfold cut64; now rewrite (proj2 (N.leb_le _ _))). rewrite Ea. assert (2 ^ 53 <= 2 ^ N.log2 b) by (apply N.pow_le_mono_r; lia). lia.
    + destruct (Lo a Ha) as (Ka & La & Ua). destruct (N.eq_dec (N.log2 a) (N.log2 b)) as [El|Ne].
      * unfold cut64. rewrite !(proj2 (N.leb_gt _ _)) by assumption. cbv zeta. rewrite El. apply N.mul_le_mono_r. apply N.div_le_mono; [apply N.pow_nonzero; lia|exact H].
      * pose proof (N.log2_le_mono a b H). assert (2 ^ N.succ (N.log2 a) <= 2 ^ N.log2 b) by (apply N.pow_le_mono_r; lia). destruct (N.log2_spec a ltac:(lia)) as [_ S]. lia.
Qed.
(** 1536 bytes are 1.5 KiB, 1280 bytes (1.25 KiB) are "1.2 KiB", the largest number is 16.0 EiB, and 1048575 bytes are "1024.0 KiB". *)
Example C91_meets : byte_count cut64 1023 = Ok (Bytes 1023) /\ byte_count cut64 1536 = Ok (Units 15 75) /\ byte_count cut64 18446744073709551615 = Ok (Units 160 69) /\
  byte_count cut64 1048575 = Ok (Units 10240 75) /\ byte_count cut64 1280 = Ok (Units 12 75) /\ 20479 * 1024 <= 20 * 1048575 < 20480 * 1024 /\ totals 0 [[1; 2]; []; [3]] = [2; 2; 3].
Proof. repeat split; vm_compute; congruence. Qed.
