(** Properties of batch encoding, batch decoding and the counting phases of training (C44-C46). *)
From Verif Require Import Base EncodingModel EncodingSpec EncodingProofs ProcessorModel BatchModel BatchSpec BatchProofs TrainCountProofs
  BpeModel TrainerModel TrainerSpec TrainerCountProofs PairCountModel PairCountProofs.
From Coq Require Import Permutation.
Open Scope Z_scope.

(** ** C44: EncodeBatch *)
Definition ex_encode (x : Z) : res Encoding :=
  if x <? 0 then Err else Ok (mkEnc [x] [0] [[97]%N] [(0, 1)] [0] [1] [0] [] None).

(** Whatever the schedule, once EncodeBatch returns, it returns what encoding the inputs one
    after the other returns: the encodings in order, padded, or an error. *)
Theorem C44_order : forall X (encode : X -> res Encoding) p inputs sched r,
  (forall x, In x inputs -> encode x = Err \/ exists e, encode x = Ok e) ->
  encode_batch encode p inputs sched = Some r ->
  r = (do l <- mapR encode inputs; batch_padded p l).
Proof. exact @encode_batch_spec. Qed.
Print Assumptions C44_order.
Example C44_order_meets : encode_batch ex_encode None [5; 6] [1; 1; 0; 1; 1; 0; 0; 0]%nat
  = Some (Ok [mkEnc [5] [0] [[97]%N] [(0, 1)] [0] [1] [0] [] None; mkEnc [6] [0] [[97]%N] [(0, 1)] [0] [1] [0] [] None]).
Proof. reflexivity. Qed.
Example C44_order_error : encode_batch ex_encode None [5; -1] [1; 0; 0; 0; 0]%nat = Some Err.
Proof. reflexivity. Qed.

(** The padding: without parameters there is none; with padding to the longest at the right, each
    result is the encoding of its input, padded to the longest of them. *)
Theorem C44_padded : forall X (encode : X -> res Encoding) p inputs encs sched r,
  Forall2 (fun x e => encode x = Ok e) inputs encs ->
  encode_batch encode p inputs sched = Some r ->
  match p with
  | None => r = Ok encs
  | Some (Padding BatchLongest PRight id ty tok) => inputs <> [] ->
      exists l n, r = Ok l /\
        (exists e, In e encs /\ enc_len e = n) /\ (forall e, In e encs -> enc_len e <= n) /\
        Forall2 (fun e e' => enc_len e' = n /\ flat e' = flat (pad_right_by e (Z.to_nat (n - enc_len e)) id ty tok)) encs l
  | Some (Padding (Fixed n) PRight id ty tok) => inputs <> [] -> (forall e, In e encs -> enc_len e <= n) ->
      exists l, r = Ok l /\
        Forall2 (fun e e' => enc_len e' = n /\ flat e' = flat (pad_right_by e (Z.to_nat (n - enc_len e)) id ty tok)) encs l
  | _ => True
  end.
Proof.
  intros X encode p inputs encs sched r F E. apply encode_batch_spec in E.
  2:{ intros x Hx. right. clear E. induction F as [|y e ys es H F IH]; [destruct Hx|]. destruct Hx as [->|Hx]; eauto. }
  assert (M : mapR encode inputs = Ok encs).
  { clear E. induction F as [|y e ys es H F IH]; [reflexivity|]. cbn [mapR]. rewrite H. cbn [bind]. now rewrite IH. }
  rewrite M in E. cbn [bind] in E.
  assert (NE : inputs <> [] -> encs <> []) by (intros H ->; inversion F; subst; congruence).
  destruct p as [[[|n|] [|] id ty tok]|]; try exact I; cbn [batch_padded pd_strategy pd_dir pd_id pd_type pd_token] in E.
  - intros N0. destruct (pad_encodings_longest encs id ty tok (NE N0)) as (l & n & H1 & H2). exists l, n. rewrite E, H1. auto.
  - intros N0 L. destruct (pad_encodings_fixed encs n id ty tok (NE N0) L) as (l & H1 & H2). exists l. rewrite E, H1. auto.
  - exact E.
Qed.
Print Assumptions C44_padded.
Example C44_padded_meets : exists r,
  encode_batch (fun k => Ok (mkEnc (repeat k (Z.to_nat k)) [] [] [] [] [] [] [] None)) (Some (Padding BatchLongest PRight 9 0 [91]%N)) [1; 3] [1; 1; 0; 1; 1; 0; 0; 0]%nat = Some (Ok r) /\
  map ids r = [[1; 9; 9]; [3; 3; 3]].
Proof. eexists. split; vm_compute; reflexivity. Qed.

(** It always returns: no schedule is longer than four steps per input, and every schedule
    that has not ended can be continued until EncodeBatch returns (so no deadlock). *)
Theorem C44_returns : forall X (encode : X -> res Encoding) inputs sched s,
  (forall x, In x inputs -> encode x = Err \/ exists e, encode x = Ok e) ->
  erun encode inputs sched (estart zero_enc inputs) = Some s ->
  (length sched <= 4 * length inputs)%nat /\
  exists more, forall p, exists r, encode_batch encode p inputs (sched ++ more) = Some r.
Proof. exact @encode_batch_live. Qed.
Print Assumptions C44_returns.
Example C44_returns_meets : (forall x, In x [5; -1] -> ex_encode x = Err \/ exists e, ex_encode x = Ok e) /\
  exists s, erun ex_encode [5; -1] [1; 0; 0]%nat (estart zero_enc [5; -1]) = Some s /\ eb_lock s = Some 0%nat.
Proof.
  split; [|eexists; split; reflexivity]. intros x _. unfold ex_encode. destruct (x <? 0); [now left|right; eauto].
Qed.

(** ** C45: DecodeBatch *)

(** The exact set of results DecodeBatch can return for a non-empty batch: the decoded texts of
    any non-empty selection of the inputs in any order. *)
Theorem C45_results_partial : forall X A (decode : X -> A) inputs out,
  inputs <> [] ->
  (exists sched, decode_batch decode inputs sched = Some out) <->
  (exists idx xs, idx <> [] /\ distinct_positions (length inputs) idx /\
     Forall2 (fun i x => nth_error inputs i = Some x) idx xs /\ out = map decode xs).
Proof.
  intros X A decode inputs out NE. split.
  - intros [sched H]. apply decode_batch_sound in H as [H1 [idx [xs [H2 [H3 ->]]]]]. exists idx, xs.
    split; [|auto]. intros ->. inversion H3; subst. now apply H1.
  - intros [idx [xs [H1 [H2 [H3 ->]]]]]. eapply decode_batch_reach; eassumption.
Qed.
Print Assumptions C45_results_partial.
Example C45_results_meets : decode_batch (fun x : Z => x * 10) [1; 2; 3] [0; 1; 2; 1; 0; 0; 2; 1; 2]%nat = Some [10; 30] /\
  decode_batch (fun x : Z => x * 10) [1; 2; 3] [0; 1; 2; 2; 2; 1; 1; 0; 0]%nat = Some [30; 20; 10].
Proof. split; reflexivity. Qed.

(** A batch of one is decoded correctly. *)
Theorem C45_one : forall X A (decode : X -> A) x sched out,
  decode_batch decode [x] sched = Some out -> out = [decode x].
Proof.
  intros X A decode x sched out H. apply decode_batch_sound in H as [H1 [idx [xs [[ND B] [F ->]]]]].
  destruct idx as [|i [|j idx]].
  - inversion F; subst. exfalso. now apply H1.
  - inversion F as [|a b c d E F']; subst. inversion F'; subst. specialize (B i (or_introl eq_refl)). cbn in B.
    assert (i = 0%nat) by lia. subst. cbn in E. injection E as ->. reflexivity.
  - exfalso. pose proof (B i (or_introl eq_refl)). pose proof (B j (or_intror (or_introl eq_refl))). cbn in *.
    inversion ND as [|a b N _]; subst. apply N. left. lia.
Qed.
Print Assumptions C45_one.
Example C45_one_meets : decode_batch (fun x : Z => x * 10) [7] [0; 0; 0]%nat = Some [70].
Proof. reflexivity. Qed.

(** Refuted for every larger batch: some schedule returns the reversed order, and some
    schedule returns a single text. *)
Theorem C45_order_refuted : forall X A (decode : X -> A) inputs, (2 <= length inputs)%nat ->
  (exists sched, decode_batch decode inputs sched = Some (rev (map decode inputs))) /\
  (forall x, In x inputs -> exists sched, decode_batch decode inputs sched = Some [decode x]).
Proof.
  intros X A decode inputs L. split.
  - destruct (decode_batch_reach decode inputs (rev (seq 0 (length inputs))) (rev inputs)) as [sched H].
    + destruct inputs as [|a l]; [cbn in L; lia|]. cbn. intros H. apply app_eq_nil in H as [_ H]. discriminate.
    + split; [apply NoDup_rev, seq_NoDup|]. intros i Hi. apply in_rev in Hi. apply in_seq in Hi. lia.
    + assert (R : forall (P : nat -> X -> Prop) a b, Forall2 P a b -> Forall2 P (rev a) (rev b)).
      { intros P a b F. induction F; cbn; [constructor|]. apply Forall2_app; [assumption|]. constructor; [assumption|constructor]. }
      apply R.
      assert (G : forall (pre l : list X), Forall2 (fun i x => nth_error (pre ++ l) i = Some x) (seq (length pre) (length l)) l).
      { intros pre l. revert pre. induction l as [|x l IH]; intros pre; cbn [length seq]; constructor.
        - rewrite nth_error_app2, Nat.sub_diag by lia. reflexivity.
        - specialize (IH (pre ++ [x])%list). rewrite <- app_assoc, app_length, Nat.add_1_r in IH. exact IH. }
      apply (G []).
    + exists sched. rewrite H. now rewrite map_rev.
  - intros x Hx. apply In_nth_error in Hx as [i Hi].
    destruct (decode_batch_reach decode inputs [i] [x]) as [sched H].
    + discriminate.
    + split; [constructor; [intros []|constructor]|]. intros j [<-|[]]. apply nth_error_Some. congruence.
    + constructor; [exact Hi|constructor].
    + exists sched. exact H.
Qed.
Print Assumptions C45_order_refuted.

(** ** C46: word counts *)
Definition ex_words (line : str) : list str := BpeSaveModel.split_on 32%N line.

(** If no file is larger than the limit of a chunk (100 MB), the dictionary is exactly the sum
    of the words of all lines of all files, whatever the schedule and the number of files. *)
Theorem C46_words_partial : forall words_of limit files sched dict,
  0 < limit -> (forall f, In f files -> zlen f <= limit) ->
  train_counts words_of limit files sched = Some dict ->
  counts_are dict (fun w => zsum (map (fun f => times_in_lines words_of w (text_lines f)) files)).
Proof. exact train_counts_small. Qed.
Print Assumptions C46_words_partial.
Example C46_words_meets :
  train_counts ex_words 100 [[97; 32; 98; 10; 97]; [97]]%N [(1, 0); (0, 0); (0, 0); (1, 0); (0, 0); (1, 0); (0, 0)]%nat
    = Some [([97]%N, 3); ([98]%N, 1)].
Proof. reflexivity. Qed.

(** While some worker has not finished, some worker can take a step. *)
Theorem C46_progress : forall words_of limit d js,
  forallb job_done js = false -> exists a s', train_step words_of limit (d, js) a = Some s'.
Proof. exact train_progress. Qed.
Print Assumptions C46_progress.
Example C46_progress_meets : forallb job_done (map (new_job 2) [[97; 10; 98; 10]%N]) = false.
Proof. reflexivity. Qed.

(** Refuted for larger files.  All workers of a file can start at its beginning, and then each
    counts the same words: the counts are multiplied by the number of workers, at least 2. *)
Theorem C46_words_refuted : forall words_of limit file,
  0 < limit -> total_length (text_lines file) <= limit -> limit < zlen file ->
  2 <= chunk_num limit file /\
  exists sched dict, train_counts words_of limit [file] sched = Some dict /\
    counts_are dict (fun w => chunk_num limit file * times_in_lines words_of w (text_lines file)).
Proof. exact train_counts_doubled. Qed.
Print Assumptions C46_words_refuted.
Example C46_words_refuted_meets : let file := [97; 10; 98; 10; 97; 10]%N in
  total_length (text_lines file) <= 3 /\ 3 < zlen file /\
  train_counts ex_words 3 [file] [(0, 0); (0, 1); (0, 0); (0, 1); (0, 0); (0, 1); (0, 0); (0, 1); (0, 0); (0, 1)]%nat
    = Some [([97]%N, 4); ([98]%N, 2)].
Proof. vm_compute. repeat split; discriminate. Qed.

(** And for any file: a schedule exists in which only the lines of the first chunk are counted,
    each as often as there are workers. *)
Theorem C46_words_first_chunk_refuted : forall words_of limit file,
  0 < limit ->
  exists sched dict, train_counts words_of limit [file] sched = Some dict /\
    counts_are dict (fun w => chunk_num limit file * times_in_lines words_of w (fitting limit (text_lines file))).
Proof. exact train_counts_multiplied. Qed.
Print Assumptions C46_words_first_chunk_refuted.
Example C46_first_chunk_meets : let file := [97; 98; 10; 98; 97; 10; 99; 10]%N in
  chunk_num 3 file = 3 /\ fitting 3 (text_lines file) = [[97; 98]]%N.
Proof. vm_compute. auto. Qed.

(** ** C46: pair counts *)

(** Below 10000 words the table holds exactly the pairs of all words, with the sum of their
    counts and the exact set of words they occur in. *)
Theorem C46_pairs_partial : forall arrival words counts,
  length counts = length words -> Z.of_nat (length words) < 10000 ->
  Permutation arrival (seq 0 (length (worker_ranges (length words)))) ->
  let r := count_pairs arrival words counts in
  pair_table_of words counts (fun p => aget pair_eqb p (fst r)) (fun p => aget pair_eqb p (snd r)).
Proof.
  intros arrival words counts L B P. pose proof (count_pairs_spec arrival words counts L P (or_introl B)) as H.
  cbv zeta in H. destruct (Z.ltb_spec (Z.of_nat (length words)) 10000); [|lia].
  rewrite firstn_all in H. rewrite <- L, firstn_all in H. exact H.
Qed.
Print Assumptions C46_pairs_partial.
Example C46_pairs_meets : count_pairs [0%nat] [[1; 2; 1; 2]; [2; 1]; [1; 2]] [3; 5; 7]
  = ([((1, 2), 13); ((2, 1), 8)], [((1, 2), [0; 2]%nat); ((2, 1), [0; 1]%nat)]).
Proof. reflexivity. Qed.

(** The sequential count, which the trainer does not use, is right for any number of words... *)
Theorem C46_sequential : forall words counts, length counts = length words ->
  exists r, count_pairs_m words counts = Ok r /\ pair_table_of words counts (fun p => aget pair_eqb p (fst r)) (fun p => aget pair_eqb p (snd r)).
Proof. exact count_pairs_m_ok. Qed.
Print Assumptions C46_sequential.
(** ...and panics exactly if a word with a pair has no count. *)
Theorem C46_sequential_panics : forall words counts,
  (exists k w, nth_error words k = Some w /\ (2 <= length w)%nat /\ (length counts <= k)%nat) <-> count_pairs_m words counts = Panic.
Proof. intros words counts. exact (count_words_short counts words 0 ([], [])). Qed.
Print Assumptions C46_sequential_panics.
Example C46_sequential_meets : count_pairs_m [[1; 2; 1; 2]; [2; 1]; [1; 2]] [3; 5; 7]
  = Ok ([((1, 2), 13); ((2, 1), 8)], [((1, 2), [0; 2]%nat); ((2, 1), [0; 1]%nat)]) /\
  count_pairs_m [[1; 2]; [2; 1]] [3] = Panic /\ count_pairs_m [[1; 2]; [2]] [3] = Ok ([((1, 2), 3)], [((1, 2), [0]%nat)]).
Proof. repeat split. Qed.

(** Refuted from 10000 words on (four workers): unless some word is longer than a quarter of the
    number of words, only the words of the first quarter are counted, whatever the order in
    which the workers finish. *)
Theorem C46_pairs_refuted : forall arrival words counts,
  length counts = length words -> 10000 <= Z.of_nat (length words) ->
  Permutation arrival (seq 0 (length (worker_ranges (length words)))) ->
  (forall w, In w words -> zlen w <= Z.of_nat (length words / 4) + 1) ->
  let r := count_pairs arrival words counts in
  let m := (length words / 4)%nat in
  pair_table_of (firstn m words) (firstn m counts) (fun p => aget pair_eqb p (fst r)) (fun p => aget pair_eqb p (snd r)).
Proof.
  intros arrival words counts L B P S0. pose proof (count_pairs_spec arrival words counts L P (or_intror S0)) as H.
  cbv zeta in *. destruct (Z.ltb_spec (Z.of_nat (length words)) 10000); [lia|]. exact H.
Qed.
Print Assumptions C46_pairs_refuted.
(** 10000 words, the last of which is the only one with the pair (3, 4). *)
Example C46_pairs_refuted_meets :
  let words := (repeat [1; 2] (Z.to_nat 9999) ++ [[3; 4]])%list in
  let counts := repeat 1 (length words) in
  length counts = length words /\ 10000 <= Z.of_nat (length words) /\
  (forall w, In w words -> zlen w <= Z.of_nat (length words / 4) + 1) /\
  occurs_in 3 4 words (length words - 1) /\
  forall arrival, Permutation arrival (seq 0 (length (worker_ranges (length words)))) ->
    aget pair_eqb (3, 4) (fst (count_pairs arrival words counts)) = None.
Proof.
  intros words counts.
  assert (Lw : length words = (Z.to_nat 9999 + 1)%nat) by (unfold words; rewrite app_length, repeat_length; reflexivity).
  assert (Lc : length counts = length words) by apply repeat_length.
  assert (B : 10000 <= Z.of_nat (length words)) by (rewrite Lw; lia).
  assert (Q : (0 < length words / 4)%nat) by (apply Nat.div_str_pos; lia).
  assert (S0 : forall w, In w words -> zlen w <= Z.of_nat (length words / 4) + 1).
  { intros w Hw. unfold words in Hw. apply in_app_or in Hw as [Hw|[<-|[]]].
    - apply repeat_spec in Hw. subst w. unfold zlen. cbn [length]. lia.
    - unfold zlen. cbn [length]. lia. }
  split; [exact Lc|]. split; [exact B|]. split; [exact S0|]. split.
  - exists [3; 4]. split; [|reflexivity]. rewrite Lw. unfold words. rewrite nth_error_app2; rewrite repeat_length.
    + replace (Z.to_nat 9999 + 1 - 1 - Z.to_nat 9999)%nat with 0%nat by lia. reflexivity.
    + lia.
  - intros arrival P. pose proof (C46_pairs_refuted arrival words counts Lc B P S0) as H. cbv zeta in H.
    destruct (H 3 4) as [[[k [w [H1 H2]]] _]|[_ [H1 _]]]; [|exact H1]. exfalso.
    assert (Hw : In w (repeat [1; 2] (Z.to_nat 9999))).
    { apply nth_error_In in H1. unfold words in H1. rewrite firstn_app, repeat_length in H1.
      fold words in H1. assert (length words / 4 <= Z.to_nat 9999)%nat.
      { rewrite Lw. apply Nat.div_le_upper_bound; lia. }
      replace (length words / 4 - Z.to_nat 9999)%nat with 0%nat in H1 by lia. cbn [firstn] in H1. rewrite app_nil_r in H1.
      rewrite <- (firstn_skipn (length words / 4) (repeat [1; 2] (Z.to_nat 9999))). apply in_or_app. now left. }
    apply repeat_spec in Hw. subst w. cbn in H2. lia.
Qed.

(** Whatever the number of workers: of several results that mention a pair, only the set of
    words of the one collected last is kept. *)
Theorem C46_positions_refuted : forall r1 r2 p s1 s2,
  NoDup (map fst (snd r1)) -> NoDup (map fst (snd r2)) ->
  aget pair_eqb p (snd r1) = Some s1 -> aget pair_eqb p (snd r2) = Some s2 ->
  aget pair_eqb p (snd (collect [r1; r2])) = Some s2.
Proof.
  intros r1 r2 p s1 s2 N1 N2 E1 E2. rewrite collect_fold, collect_last by (repeat constructor; assumption).
  cbn [fold_left snd]. unfold pair_words in *. now rewrite E2.
Qed.
Print Assumptions C46_positions_refuted.
Example C46_positions_meets :
  collect [([((1, 2), 5)], [((1, 2), [0%nat])]); ([((1, 2), 7)], [((1, 2), [9%nat])])] = ([((1, 2), 12)], [((1, 2), [9%nat])]).
Proof. reflexivity. Qed.
