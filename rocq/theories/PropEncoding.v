(** Properties C01-C08 and C10: encodings, truncation, padding, merging, lookups.
    Theorems only; proofs are in EncodingProofs.v. *)
From Verif Require Import Base EncodingModel EncodingSpec EncodingProofs.

(** A small encoding with [n] tokens used by the examples. *)
Definition ex_enc (n : nat) : Encoding :=
  mkEnc (zrange n 10) (repeat 0%Z n) (repeat [97%N] n)
        (map (fun i => (i, i + 1)%Z) (zrange n 0)) (repeat 0%Z n) (repeat 1%Z n)
        (zrange n 0) [] (Some []).

(** ** C01 *)
Theorem C01_truncate_windows : forall e m s,
  parallel e -> s < m -> m < length (ids e) ->
  exists k,
    truncate e (Z.of_nat m) (Z.of_nat s)
      = Ok (enc_prefix e m (map (fun j => enc_window e (S j * (m - s)) m) (seq 0 k)), false)
    /\ 0 < k
    /\ length (ids e) <= k * (m - s) + m
    /\ (k - 1) * (m - s) + m < length (ids e).
Proof. exact truncate_long. Qed.
Print Assumptions C01_truncate_windows.

Theorem C01_no_token_lost : forall e m s e',
  parallel e -> s < m -> m < length (ids e) ->
  truncate e (Z.of_nat m) (Z.of_nat s) = Ok (e', false) ->
  forall i, i < length (ids e) ->
    (i < length (ids e') /\ nth i (ids e') 0%Z = nth i (ids e) 0%Z) \/
    exists j w q, nth_error (overflowing e') j = Some w /\ q < length (ids w) /\
      q + (j + 1) * (m - s) = i /\ nth q (ids w) 0%Z = nth i (ids e) 0%Z.
Proof. exact truncate_covers. Qed.
Print Assumptions C01_no_token_lost.

Example C01_example :
  parallel (ex_enc 7) /\ 1 < 3 < length (ids (ex_enc 7)) /\
  match truncate (ex_enc 7) 3 1 with
  | Ok (e', false) => ids e' = [10; 11; 12]%Z /\
      map ids (overflowing e') = [[12; 13; 14]; [14; 15; 16]]%Z
  | _ => False
  end.
Proof. repeat split; cbn; lia. Qed.

(** ** C02 *)
Theorem C02_truncate_outcomes : forall e m s,
  parallel e -> (0 <= m)%Z -> (0 <= s)%Z ->
  ((s >= m \/ m = 0) /\ truncate e m s = Ok (e, true))%Z \/
  ((s < m /\ zlen (ids e) <= m) /\ truncate e m s = Ok (e, false))%Z \/
  ((s < m /\ m < zlen (ids e)) /\ exists e', truncate e m s = Ok (e', false) /\
     zlen (ids e') = m)%Z.
Proof. exact truncate_cases. Qed.
Print Assumptions C02_truncate_outcomes.

Theorem C02_truncate_error_iff : forall e m s e' b,
  truncate e m s = Ok (e', b) ->
  (b = true <-> (s >= m \/ m = 0)%Z) /\ (b = true -> e' = e).
Proof. exact truncate_error_iff. Qed.
Print Assumptions C02_truncate_error_iff.

Example C02_example :
  truncate (ex_enc 4) 2 2 = Ok (ex_enc 4, true) /\
  truncate (ex_enc 4) 0 0 = Ok (ex_enc 4, true) /\
  truncate (ex_enc 4) 4 1 = Ok (ex_enc 4, false).
Proof. repeat split. Qed.

(** ** C03 *)
Theorem C03_history_parallel : forall ops e e',
  deep_parallel e -> Forall op_parallel ops ->
  foldR enc_step ops e = Ok e' -> deep_parallel e'.
Proof. exact history_parallel. Qed.
Print Assumptions C03_history_parallel.

Example C03_example :
  let ops := [OpMerge (ex_enc 5) true; OpTruncate 4 1; OpPadRight 6 0 0 [91%N];
              OpMerge (set_overflowing (ex_enc 2) [ex_enc 1]) false] in
  deep_parallel (ex_enc 3) /\ Forall op_parallel ops /\
  match foldR enc_step ops (ex_enc 3) with
  | Ok e' => length (ids e') = 8 /\ length (overflowing e') = 5
  | _ => False
  end.
Proof.
  cbn zeta. split; [|split].
  - repeat constructor.
  - repeat constructor.
  - vm_compute. split; reflexivity.
Qed.

(** ** C04 *)
Theorem C04_merge_concatenates : forall g e p r,
  merge_with g e p = Ok r -> flat r = enc_append e p (growth g e).
Proof. exact merge_with_flat. Qed.
Print Assumptions C04_merge_concatenates.

Theorem C04_merge_overflow : forall g e p r,
  merge_with g e p = Ok r -> map flat (overflowing r) = over_spec g e p.
Proof. exact merge_with_overflow. Qed.
Print Assumptions C04_merge_overflow.

Theorem C04_merge_overflow_count : forall g e p r,
  merge_with g e p = Ok r ->
  length (overflowing r)
  = length (overflowing e) * (1 + length (overflowing p)) + length (overflowing p).
Proof. exact merge_overflow_count. Qed.
Print Assumptions C04_merge_overflow_count.

Theorem C04_merge_ranges : forall g e p r,
  merge_with g e p = Ok r ->
  (forall k l, In (k, l) (match seq_ranges p with Some m => m | None => [] end) -> interval l) ->
  NoDup (map fst (match seq_ranges p with Some m => m | None => [] end)) ->
  forall k, range_of r k =
    match range_of p k with Some l => Some (map (Z.add (enc_len e)) l) | None => range_of e k end.
Proof. exact merge_with_ranges. Qed.
Print Assumptions C04_merge_ranges.

Theorem C04_merge_total : forall g e p,
  deep_ranges e -> deep_ranges p -> exists r, merge_with g e p = Ok r /\ deep_ranges r.
Proof. exact merge_with_total. Qed.
Print Assumptions C04_merge_total.

(** Without the allocation hypothesis merging can crash: every window produced by
    Truncate has a nil range map, and writing to it panics. *)
Theorem C04_merge_nil_ranges_panic : forall g e o p k l rest,
  overflowing e = o :: rest -> overflowing o = [] -> overflowing p = [] ->
  seq_ranges o = None -> seq_ranges p = Some [(k, l)] -> interval l ->
  merge_with g e p = Panic.
Proof. exact merge_nil_ranges_panic. Qed.
Print Assumptions C04_merge_nil_ranges_panic.

Example C04_example :
  let e := set_overflowing (ex_enc 3) [ex_enc 2] in
  let p := mkEnc [7]%Z [1]%Z [[98%N]] [(0, 1)]%Z [0]%Z [1]%Z [0]%Z [ex_enc 1] (Some [(1, [0])])%Z in
  deep_ranges e /\ deep_ranges p /\
  match merge_with true e p with
  | Ok r => ids r = [10; 11; 12; 7]%Z /\ offsets r = [(0, 1); (1, 2); (2, 3); (3, 4)]%Z /\
            map ids (overflowing r) = [[10; 11; 7]; [10; 11; 10]; [10; 11; 12; 10]]%Z /\
            range_of r 1 = Some [3]%Z
  | _ => False
  end.
Proof.
  cbn zeta. split; [|split].
  - repeat constructor; cbn; try discriminate; unfold ranges_ok; cbn; easy.
  - constructor; [discriminate| |].
    + intros k r [[= <- <-]|[]]. exists 0%Z, []. split; [reflexivity|cbn; lia].
    + repeat constructor; cbn; try discriminate; unfold ranges_ok; cbn; easy.
  - vm_compute. repeat split; reflexivity.
Qed.

Example C04_nil_ranges_example :
  match truncate (ex_enc 3) 2 0 with
  | Ok (e, _) => merge_with false e
      (mkEnc [7]%Z [1]%Z [[98%N]] [(0, 1)]%Z [0]%Z [1]%Z [0]%Z [] (Some [(1, [0])])%Z) = Panic
  | _ => False
  end.
Proof. vm_compute. reflexivity. Qed.

(** ** C05 *)
Theorem C05_pad_right_exact : forall e t padId padTypeId padToken,
  pad e t padId padTypeId padToken PRight
  = Ok (pad_right_by
          (set_overflowing e
             (map (fun o => pad_right_by o (Z.to_nat (t - zlen (ids o))) padId padTypeId padToken)
                  (overflowing e)))
          (Z.to_nat (t - zlen (ids e))) padId padTypeId padToken).
Proof. exact pad_right_spec. Qed.
Print Assumptions C05_pad_right_exact.

Theorem C05_pad_right_noop : forall e t padId padTypeId padToken,
  overflowing e = [] -> (t <= zlen (ids e))%Z ->
  pad e t padId padTypeId padToken PRight = Ok e.
Proof. exact pad_right_noop. Qed.
Print Assumptions C05_pad_right_noop.

Example C05_example :
  pad (ex_enc 1) 3 9 8 [91%N] PRight =
  Ok (mkEnc [10; 9; 9]%Z [0; 8; 8]%Z [[97%N]; [91%N]; [91%N]] [(0, 1); (0, 0); (0, 0)]%Z
        [0; 1; 1]%Z [1; 0; 0]%Z [0; -1; -1]%Z [] (Some [])).
Proof. reflexivity. Qed.

(** ** C06: the code violates the property for every encoding without overflow. *)
Theorem C06_left_pad_refuted : forall e t padId padTypeId padToken,
  parallel e -> (zlen (ids e) < t)%Z -> overflowing e = [] ->
  pad e t padId padTypeId padToken PLeft
  <> Ok (pad_left_by e (Z.to_nat (t - zlen (ids e))) padId padTypeId padToken).
Proof. exact pad_left_never_mirror. Qed.
Print Assumptions C06_left_pad_refuted.

Theorem C06_left_pad_panics_refuted : forall e t padId padTypeId padToken,
  ids e <> [] -> (zlen (ids e) < t)%Z -> overflowing e = [] ->
  pad e t padId padTypeId padToken PLeft = Panic.
Proof. exact pad_left_nonempty_panics. Qed.
Print Assumptions C06_left_pad_panics_refuted.

Theorem C06_left_pad_noop_partial : forall e t padId padTypeId padToken,
  overflowing e = [] -> (t <= zlen (ids e))%Z ->
  pad e t padId padTypeId padToken PLeft = Ok e.
Proof. exact pad_left_noop. Qed.
Print Assumptions C06_left_pad_noop_partial.

Example C06_example :
  parallel (ex_enc 2) /\ (zlen (ids (ex_enc 2)) < 3)%Z /\ overflowing (ex_enc 2) = [] /\
  pad (ex_enc 2) 3 9 8 [91%N] PLeft = Panic /\ pad (ex_enc 2) 2 9 8 [91%N] PLeft = Ok (ex_enc 2).
Proof. repeat split. Qed.

(** ** C07 *)
Theorem C07_pad_batch_longest : forall l padId padTypeId padToken,
  l <> [] ->
  exists l' n,
    pad_encodings l BatchLongest PRight padId padTypeId padToken = Ok l' /\
    (exists e, In e l /\ enc_len e = n) /\ (forall e, In e l -> (enc_len e <= n)%Z) /\
    Forall2 (fun e e' => enc_len e' = n /\
      flat e' = flat (pad_right_by e (Z.to_nat (n - enc_len e)) padId padTypeId padToken)) l l'.
Proof. exact pad_encodings_longest. Qed.
Print Assumptions C07_pad_batch_longest.

Theorem C07_pad_fixed : forall l n padId padTypeId padToken,
  l <> [] -> (forall e, In e l -> (enc_len e <= n)%Z) ->
  exists l',
    pad_encodings l (Fixed n) PRight padId padTypeId padToken = Ok l' /\
    Forall2 (fun e e' => enc_len e' = n /\
      flat e' = flat (pad_right_by e (Z.to_nat (n - enc_len e)) padId padTypeId padToken)) l l'.
Proof. exact pad_encodings_fixed. Qed.
Print Assumptions C07_pad_fixed.

Example C07_example :
  match pad_encodings [ex_enc 1; ex_enc 3] BatchLongest PRight 9 0 [91%N] with
  | Ok l => map ids l = [[10; 9; 9]; [10; 11; 12]]%Z
  | _ => False
  end.
Proof. reflexivity. Qed.

(** ** C08 *)
Theorem C08_single_limit : forall e m s strat,
  parallel e -> (0 <= s < m)%Z -> strat <> OnlySecond ->
  exists e', truncate_encodings e None strat m s = Ok (e', None) /\
    enc_len e' = Z.min m (enc_len e) /\
    exists over, flat e' = flat (enc_prefix e (Z.to_nat m) over).
Proof. exact truncate_encodings_single. Qed.
Print Assumptions C08_single_limit.

Theorem C08_pair_only_first_partial : forall e p m s,
  parallel e -> (0 <= s)%Z -> (0 < m)%Z -> (s < m - enc_len p)%Z ->
  exists e', truncate_encodings e (Some p) OnlyFirst m s = Ok (e', Some p) /\
    enc_len e' = Z.min (enc_len e) (m - enc_len p).
Proof. exact truncate_encodings_only_first. Qed.
Print Assumptions C08_pair_only_first_partial.

Theorem C08_pair_only_second_partial : forall e p m s,
  parallel p -> (0 <= s)%Z -> (0 < m)%Z -> (s < m - enc_len e)%Z ->
  exists p', truncate_encodings e (Some p) OnlySecond m s = Ok (e, Some p') /\
    enc_len p' = Z.min (enc_len p) (m - enc_len e).
Proof. exact truncate_encodings_only_second. Qed.
Print Assumptions C08_pair_only_second_partial.

Theorem C08_pair_longest_first_partial : forall e p m s,
  parallel e -> parallel p -> (0 <= s)%Z -> (0 < m)%Z -> (s < m - enc_len e)%Z ->
  exists e' p', truncate_encodings e (Some p) LongestFirst m s = Ok (e', Some p') /\
    (enc_len e' + enc_len p' <= m)%Z.
Proof. exact truncate_encodings_longest_first_bounded. Qed.
Print Assumptions C08_pair_longest_first_partial.

(** The limit is exceeded whenever the first sequence alone reaches it and the
    second one is longer than it. *)
Theorem C08_pair_limit_refuted : forall e p m s,
  parallel e -> parallel p -> (0 <= s)%Z -> (0 < m)%Z ->
  (m <= enc_len e)%Z -> (m < enc_len p)%Z ->
  exists e' p', truncate_encodings e (Some p) LongestFirst m s = Ok (e', Some p') /\
    (m < enc_len e' + enc_len p')%Z.
Proof. exact truncate_encodings_longest_first_exceeds. Qed.
Print Assumptions C08_pair_limit_refuted.

(** The exact lengths LongestFirst produces, for every pair and stride. *)
Theorem C08_pair_longest_first_lengths : forall e p m s,
  parallel e -> parallel p -> (0 <= s)%Z -> (0 < m)%Z -> (m <= enc_len e + enc_len p)%Z ->
  let a := enc_len e in let b := enc_len p in
  let n1 := (a - Z.max 0 (a + b - m - Z.max 0 (b - a + 1)))%Z in
  let n2 := (m - a)%Z in
  exists e' p', truncate_encodings e (Some p) LongestFirst m s = Ok (e', Some p') /\
    enc_len e' = (if (s <? n1)%Z then n1 else a) /\
    enc_len p' = (if (s <? n2)%Z then Z.min b n2 else b).
Proof. exact truncate_encodings_longest_first. Qed.
Print Assumptions C08_pair_longest_first_lengths.

Example C08_example :
  match truncate_encodings (ex_enc 5) (Some (ex_enc 3)) OnlyFirst 6 1 with
  | Ok (e', Some p') => (enc_len e', enc_len p') = (3, 3)%Z
  | _ => False
  end /\
  match truncate_encodings (ex_enc 10) (Some (ex_enc 10)) LongestFirst 18 0 with
  | Ok (e', Some p') => (enc_len e', enc_len p') = (9, 8)%Z
  | _ => False
  end /\
  match truncate_encodings (ex_enc 3) (Some (ex_enc 3)) LongestFirst 2 0 with
  | Ok (e', Some p') => (enc_len e', enc_len p') = (3, 3)%Z
  | _ => False
  end.
Proof. vm_compute. repeat split. Qed.

(** ** C10 *)
Theorem C10_char2token : forall e pos,
  match char2token e pos with
  | Some t => exists n o, t = Z.of_nat n /\ nth_error (offsets e) n = Some o /\
      (fst o <= pos < snd o)%Z /\
      forall n' o', n' < n -> nth_error (offsets e) n' = Some o' -> ~ (fst o' <= pos < snd o')%Z
  | None => forall o, In o (offsets e) -> ~ (fst o <= pos < snd o)%Z
  end.
Proof. exact char2token_spec. Qed.
Print Assumptions C10_char2token.

Theorem C10_token2word : forall e t,
  token2word e t = if (t <? 0)%Z then None else nth_error (words e) (Z.to_nat t).
Proof. exact token2word_spec. Qed.
Print Assumptions C10_token2word.

(** Token2Chars: correct below the length, but index = length panics. *)
Theorem C10_token2chars_partial : forall e t,
  t <> zlen (offsets e) ->
  token2chars e t = Ok (if (t <? 0)%Z then None else nth_error (offsets e) (Z.to_nat t)).
Proof. exact token2chars_spec. Qed.
Print Assumptions C10_token2chars_partial.

Theorem C10_token2chars_refuted : forall e, token2chars e (zlen (offsets e)) = Panic.
Proof. exact token2chars_panics. Qed.
Print Assumptions C10_token2chars_refuted.

Theorem C10_word2tokens_partial : forall e w,
  nondecreasing (words e) -> In w (words e) ->
  exists s t, word2tokens e w = Some (s, t) /\ is_word_range e w s t.
Proof. exact word2tokens_sorted. Qed.
Print Assumptions C10_word2tokens_partial.

(** A token without word at the end (every [SEP], every padding token) breaks the
    lookup of the last word. *)
Theorem C10_word2tokens_refuted : forall e l w,
  words e = l ++ [(-1)%Z] -> (0 <= w)%Z ->
  forall s t, word2tokens e w = Some (s, t) ->
    ~ (exists x, In x l /\ (w < x)%Z) -> ~ is_word_range e w s t.
Proof. exact word2tokens_trailing_special. Qed.
Print Assumptions C10_word2tokens_refuted.

(** Char2Word: the word of the first token containing the position. *)
Theorem C10_char2word : forall e pos w,
  char2word e pos = Some w <->
  exists n o, nth_error (offsets e) n = Some o /\ (fst o <= pos < snd o)%Z /\
    (forall n' o', n' < n -> nth_error (offsets e) n' = Some o' -> ~ (fst o' <= pos < snd o')%Z) /\
    nth_error (words e) n = Some w.
Proof. exact char2word_spec. Qed.
Print Assumptions C10_char2word.

(** Word2Chars: from the start of the word's first token to the end of its last. *)
Theorem C10_word2chars_partial : forall e w,
  nondecreasing (words e) -> length (offsets e) = length (words e) -> In w (words e) ->
  exists s t os oe, is_word_range e w s t /\
    nth_error (offsets e) (Z.to_nat s) = Some os /\
    nth_error (offsets e) (Z.to_nat (t - 1)) = Some oe /\
    word2chars e w = Ok (Some (fst os, snd oe)).
Proof. exact word2chars_sorted. Qed.
Print Assumptions C10_word2chars_partial.

(** Token2Sequence: the sequence whose range has the token. *)
Theorem C10_token2sequence : forall e m tok k,
  seq_ranges e = Some m -> m <> [] ->
  (forall k' r i, In (k', r) m -> In i r -> (i < enc_len e)%Z) ->
  (forall k1 r1 k2 r2 i, In (k1, r1) m -> In (k2, r2) m -> In i r1 -> In i r2 -> k1 = k2) ->
  (token2sequence e tok = Some k <-> exists r, In (k, r) m /\ In tok r).
Proof. exact token2sequence_spec. Qed.
Print Assumptions C10_token2sequence.

(** Without ranges every index up to and including the length, and every negative
    one, is said to be in sequence 0. *)
Theorem C10_token2sequence_bounds_refuted : forall e tok,
  seq_ranges e = None \/ seq_ranges e = Some [] -> (tok <= enc_len e)%Z ->
  token2sequence e tok = Some 0%Z.
Proof. exact token2sequence_no_ranges. Qed.
Print Assumptions C10_token2sequence_bounds_refuted.

Example C10_more_example :
  let e := mkEnc [1; 2; 3]%Z [] [] [(0, 2); (2, 3); (4, 6)]%Z [] [] [0; 0; 1]%Z []
                 (Some [(0, [0; 1]); (1, [2])])%Z in
  char2word e 2 = Some 0%Z /\ char2word e 5 = Some 1%Z /\ char2word e 3 = None /\
  word2chars e 0 = Ok (Some (0, 3))%Z /\ token2sequence e 2 = Some 1%Z /\
  token2sequence (ex_enc 3) 3 = Some 0%Z.
Proof. repeat split. Qed.

Example C10_example :
  let e := mkEnc [1; 2; 3; 4; 5]%Z [] [] [(0, 0); (0, 2); (2, 3); (4, 6); (0, 0)]%Z [] []
                 [-1; 0; 0; 1; -1]%Z [] None in
  char2token e 2 = Some 2%Z /\ char2token e 3 = None /\ token2word e 3 = Some 1%Z /\
  word2tokens e 1 = Some (3, 5)%Z /\ word2tokens (ex_enc 4) 2 = Some (2, 3)%Z.
Proof. repeat split. Qed.
