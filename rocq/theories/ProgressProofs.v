(** The progress shown while a file is downloaded (C91). *)
From Verif Require Import Base ProgressModel ProgressSpec.
From Coq Require Import Lia Psatz.
Open Scope N_scope.

Lemma nearest_spec a d : 0 < d -> 2 * a <= 2 * (nearest a d * d) + d /\ 2 * (nearest a d * d) <= 2 * a + d.
Proof.
  intros H. unfold nearest. pose proof (N.div_mod a d ltac:(lia)) as E. pose proof (N.mod_lt a d ltac:(lia)) as L.
  set (q := a / d) in *. set (r := a mod d) in *. assert (D : (q + 1) * d = d * q + d) by lia. assert (D0 : q * d = d * q) by lia. destruct (2 * r <? d) eqn:E1; [apply N.ltb_lt in E1; lia|apply N.ltb_ge in E1].
  destruct (d <? 2 * r) eqn:E2; [apply N.ltb_lt in E2; lia|apply N.ltb_ge in E2]. destruct (N.even q); lia.
Qed.
Lemma nearest_even a d : 0 < d -> 2 * a = 2 * (nearest a d * d) + d \/ 2 * (nearest a d * d) = 2 * a + d -> N.even (nearest a d) = true.
Proof.
  intros H. unfold nearest. pose proof (N.div_mod a d ltac:(lia)) as E. pose proof (N.mod_lt a d ltac:(lia)) as L.
  set (q := a / d) in *. set (r := a mod d) in *. assert (D : (q + 1) * d = d * q + d) by lia. assert (D0 : q * d = d * q) by lia. destruct (2 * r <? d) eqn:E1; [apply N.ltb_lt in E1; lia|apply N.ltb_ge in E1].
  destruct (d <? 2 * r) eqn:E2; [apply N.ltb_lt in E2; lia|apply N.ltb_ge in E2]. destruct (N.even q) eqn:Eq; [easy|]. intros _. rewrite N.add_1_r, N.even_succ, <- N.negb_even, Eq. reflexivity.
Qed.
Lemma nearest_low a d k : 0 < d -> k * d <= a -> k <= nearest a d.
Proof.
  intros H L. unfold nearest. assert (K : k <= a / d) by (apply N.div_le_lower_bound; lia). destruct (2 * _ <? d); [lia|]. destruct (d <? _); [lia|]. destruct (N.even _); lia.
Qed.
Lemma nearest_high a d k : 0 < d -> a <= k * d -> nearest a d <= k.
Proof.
  intros H L. destruct (N.eq_dec a (k * d)) as [-> |Ne].
  - unfold nearest. rewrite N.div_mul, N.mod_mul by lia. destruct (2 * 0 <? d) eqn:E; [lia|apply N.ltb_ge in E; lia].
  - unfold nearest. assert (K : a / d < k) by (apply N.div_lt_upper_bound; lia). destruct (2 * _ <? d); [lia|]. destruct (d <? _); [lia|]. destruct (N.even _); lia.
Qed.
(** The loop ends at the unit that fits. *)
Lemma unit_found b : 1024 <= b -> b < 2 ^ 64 -> exists e l s, unit_loop 64 (b / 1024) 1024 0 = Ok (s, e) /\ nth_error [75; 77; 71; 84; 80; 69] e = Some l /\ In (l, s) units /\ s <= b < 1024 * s.
Proof.
  intros L H. change (2 ^ 64) with 18446744073709551616 in H.
  assert (Q : forall n, n / 1024 <= n) by (intros; apply N.div_le_upper_bound; lia).
  assert (T : forall n k, 1024 <=? n / k = false -> 0 < k -> n < 1024 * k). { intros n k E K. apply N.leb_gt in E. destruct (N.lt_ge_cases n (1024 * k)) as [X|X]; [exact X|]. assert (1024 <= n / k) by (apply N.div_le_lower_bound; lia). lia. }
  assert (G : forall n k, 1024 <=? n / k = true -> 0 < k -> 1024 * k <= n). { intros n k E K. apply N.leb_le in E. pose proof (N.mul_div_le n k ltac:(lia)). nia. }
  change 64%nat with (S (S (S (S (S (S (58)))))))%nat.
  cbn [unit_loop]. destruct (1024 <=? b / 1024) eqn:E1; [|exists 0%nat, 75, 1024; repeat split; [cbn; tauto|lia|exact (T _ _ E1 ltac:(lia))]]. apply G in E1; [|lia]. rewrite !N.div_div by lia.
  change (1024 * 1024) with 1048576 in *. change (u64 1048576) with 1048576.
  destruct (1024 <=? b / 1048576) eqn:E2; [|exists 1%nat, 77, 1048576; repeat split; [cbn; tauto|lia|exact (T _ _ E2 ltac:(lia))]]. apply G in E2; [|lia].
  change (u64 (1048576 * 1024)) with 1073741824. change (1048576 * 1024) with 1073741824 in *.
  destruct (1024 <=? b / 1073741824) eqn:E3; [|exists 2%nat, 71, 1073741824; repeat split; [cbn; tauto|lia|exact (T _ _ E3 ltac:(lia))]]. apply G in E3; [|lia].
  change (u64 (1073741824 * 1024)) with 1099511627776. change (1073741824 * 1024) with 1099511627776 in *.
  destruct (1024 <=? b / 1099511627776) eqn:E4; [|exists 3%nat, 84, 1099511627776; repeat split; [cbn; tauto|lia|exact (T _ _ E4 ltac:(lia))]]. apply G in E4; [|lia].
  change (u64 (1099511627776 * 1024)) with 1125899906842624. change (1099511627776 * 1024) with 1125899906842624 in *.
  destruct (1024 <=? b / 1125899906842624) eqn:E5; [|exists 4%nat, 80, 1125899906842624; repeat split; [cbn; tauto|lia|exact (T _ _ E5 ltac:(lia))]]. apply G in E5; [|lia].
  change (u64 (1125899906842624 * 1024)) with 1152921504606846976. change (1125899906842624 * 1024) with 1152921504606846976 in *.
  destruct (1024 <=? b / 1152921504606846976) eqn:E6; [apply G in E6; lia|].
  exists 5%nat, 69, 1152921504606846976. repeat split; [cbn; tauto|lia|lia].
Qed.
Lemma units_powers l s : In (l, s) units -> exists k, s = 2 ^ k /\ 1024 * s = 2 ^ (k + 10).
Proof.
  intros H. cbn in H. repeat (destruct H as [H|H]; [injection H as <- <-|]); [exists 10|exists 20|exists 30|exists 40|exists 50|exists 60|contradiction]; split; reflexivity.
Qed.
Lemma amount_shown to64 b : converts to64 -> 1024 <= b -> b < 2 ^ 64 ->
  exists l s t, In (l, s) units /\ s <= b < 1024 * s /\ byte_count to64 b = Ok (Units t l) /\ 10 <= t <= 10240 /\
    (b <= 2 ^ 53 -> (20 * b <= 2 * (t * s) + s /\ 2 * (t * s) <= 20 * b + s) /\ (20 * b = 2 * (t * s) + s \/ 2 * (t * s) = 20 * b + s -> N.even t = true)) /\
    (b < 2 ^ 53 -> 20479 * s <= 20 * b -> t = 10240).
Proof.
  intros (C1 & C2 & C3) L H. destruct (unit_found b L H) as (e & l & s & E & N & I & B1 & B2). exists l, s, (nearest (10 * to64 b) s).
  destruct (units_powers l s I) as (k & Es & Es'). assert (P : 0 < s) by (rewrite Es; apply N.neq_0_lt_0, N.pow_nonzero; lia).
  assert (Ts : to64 s = s) by (rewrite Es; apply C2). assert (T1 : s <= to64 b) by (rewrite <- Ts; now apply C3).
  assert (T2 : to64 b <= 1024 * s) by (rewrite Es', <- C2, <- Es'; apply C3; lia).
  assert (Bd : 10 <= nearest (10 * to64 b) s <= 10240) by (split; [apply nearest_low|apply nearest_high]; lia).
  split; [exact I|]. split; [split; assumption|]. split.
  - unfold byte_count. rewrite (proj2 (N.ltb_ge b 1024) L), E. cbn [bind fst snd]. now rewrite N, Ts.
  - split; [exact Bd|]. split.
    + intros Hb. rewrite (C1 b Hb). pose proof (nearest_spec (10 * b) s P). split; [lia|]. intros Tie. apply nearest_even; [exact P|lia].
    + intros Hb Hr. rewrite (C1 b ltac:(lia)). unfold nearest. assert (Q : 10 * b / s = 10239) by (symmetry; apply (N.div_unique _ _ _ (10 * b - 10239 * s)); lia). rewrite (N.mod_eq _ s) by lia. rewrite Q.
      rewrite (proj2 (N.ltb_ge _ _)) by lia. destruct (s <? _); reflexivity.
Qed.
Lemma total_after ps : forall t0, t0 < 2 ^ 64 -> forall k, (k < length ps)%nat -> nth_error (totals t0 ps) k = Some ((t0 + sent (firstn (S k) ps)) mod 2 ^ 64).
Proof.
  change (2 ^ 64) with 18446744073709551616. induction ps as [|p ps IH]; intros t0 H k Hk; [cbn in Hk; lia|]. cbn [totals]. unfold counter_write, u64. destruct k as [|k].
  - cbn [nth_error firstn]. unfold sent. cbn [concat]. now rewrite app_nil_r.
  - cbn [nth_error]. rewrite IH; [|apply N.mod_lt; lia|cbn [length] in Hk; lia]. f_equal. rewrite N.add_mod_idemp_l by lia. f_equal. cbn [firstn]. unfold sent. cbn [concat]. rewrite app_length, Nat2N.inj_add. lia.
Qed.
