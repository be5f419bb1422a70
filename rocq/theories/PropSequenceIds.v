(** Property C65: the sequence of each token. Theorems only; proofs are in
    SequenceIdsProofs.v. *)
From Verif Require Import Base EncodingModel EncodingSpec EncodingProofs SequenceIdsModel SequenceIdsSpec SequenceIdsProofs.
Open Scope Z_scope.

(** Two sequences, three and two tokens. *)
Definition ex_pair : Encoding :=
  mkEnc [7; 8; 9; 5; 6] (repeat 0 5) (repeat [97%N] 5) (repeat (0, 1) 5) (repeat 0 5) (repeat 1 5) (repeat 0 5) []
        (Some [(1, [3; 4]); (0, [0; 1; 2])]).
Example ex_pair_meets : numbered ex_pair /\ in_order ex_pair /\ n_sequences ex_pair = 2%nat.
Proof.
  split; [|split; [|reflexivity]].
  - split; [eexists; split; [reflexivity|discriminate]|]. change (Z.of_nat (n_sequences ex_pair)) with 2. intros k Hk.
    assert (D : k = 0 \/ k = 1) by lia. destruct D as [-> | ->]; [exists 0, 3%nat|exists 3, 2%nat]; (split; [reflexivity|]); cbn; lia.
  - intros k k' p p' Hk (r & R & P) (r' & R' & P'). unfold range_of in R, R'. cbn in R, R'.
    destruct (Z.eqb_spec k 1) as [K1|K1]; destruct (Z.eqb_spec k' 1) as [K1'|K1']; try lia;
    destruct (Z.eqb_spec k 0) as [K0|K0]; destruct (Z.eqb_spec k' 0) as [K0'|K0']; try lia; try discriminate R; try discriminate R'.
    injection R as <-. injection R' as <-. cbn in P, P'. lia.
Qed.

(** Every token of a sequence gets the number of its sequence, whatever [append] does with
    the arrays it shares. *)
Theorem C65_inside_partial : forall grow e, numbered e -> in_order e ->
  exists l, get_sequence_ids grow e = Ok l /\
    forall k p, 0 <= k < Z.of_nat (n_sequences e) -> in_sequence e p k -> nth_error l (Z.to_nat p) = Some k.
Proof.
  intros grow e N O. destruct (get_sequence_ids_ok grow e N) as (l & E & L & H). exists l. split; [exact E|]. intros k p Hk Hp.
  rewrite <- (H O k p Hk Hp). apply nth_error_nth'. rewrite L. destruct N as (_ & N). destruct (N k Hk) as (a & n & R & X & Y & W). destruct Hp as (r & R' & Hp).
  rewrite R in R'. injection R' as <-. apply zrange_In in Hp. unfold enc_len, zlen in W. lia.
Qed.
Print Assumptions C65_inside_partial.
(** But the list never has one entry per token: every sequence adds one entry more. *)
Theorem C65_length_refuted : forall grow e, numbered e ->
  exists l, get_sequence_ids grow e = Ok l /\ zlen l = enc_len e + Z.of_nat (n_sequences e) /\ zlen l <> enc_len e.
Proof.
  intros grow e N. destruct (get_sequence_ids_ok grow e N) as (l & E & L & _). exists l. split; [exact E|]. unfold enc_len, zlen. rewrite L.
  destruct N as ((m & Hm & Ne) & _). rewrite (n_sequences_cons e m Hm Ne). destruct m; [congruence|]. cbn [length]. lia.
Qed.
Print Assumptions C65_length_refuted.
Example C65_ids_example : get_sequence_ids (fun _ => 0%nat) ex_pair = Ok [0; 0; 0; 1; 1; 1; 0].
Proof. reflexivity. Qed.
(** And an encoding without sequences, such as every one BERT processing makes of a pair, has no list at all. *)
Theorem C65_empty_refuted : forall grow e, seq_ranges e = None \/ seq_ranges e = Some [] -> n_sequences e = 1%nat /\ get_sequence_ids grow e = Panic.
Proof. intros grow e H. split; [destruct H as [H|H]; unfold n_sequences; now rewrite H|now apply get_sequence_ids_none]. Qed.
Print Assumptions C65_empty_refuted.
Example C65_empty_example : get_sequence_ids (fun _ => 0%nat) (mkEnc [7] [0] [[97%N]] [(0, 1)] [0] [1] [0] [] (Some [])) = Panic.
Proof. reflexivity. Qed.

(** SequenceRange returns the range of a sequence that is the whole encoding. *)
Theorem C65_range_partial : forall spare e k r, range_of e k = Some r -> zlen r = enc_len e -> sequence_range spare e k = Ok r.
Proof. exact sequence_range_whole. Qed.
Print Assumptions C65_range_partial.
(** The range of a shorter one is never returned: it panics, or it is as long as the
    encoding. *)
Theorem C65_range_refuted : forall spare e k r, range_of e k = Some r -> zlen r < enc_len e ->
  sequence_range spare e k = Panic \/ exists x, sequence_range spare e k = Ok x /\ zlen x = enc_len e /\ x <> r.
Proof.
  intros spare e k r H L. destruct (sequence_range spare e k) as [x| | | |] eqn:E; try (now left);
  try (unfold range_of in H; unfold sequence_range in E; destruct (seq_ranges e); [|discriminate H]; rewrite H in E; destruct (_ <? _); discriminate E).
  right. exists x. split; [reflexivity|]. destruct (sequence_range_short spare e k r H L x) as (_ & X). destruct (X E). auto.
Qed.
Print Assumptions C65_range_refuted.
Example C65_range_example : range_of ex_pair 0 = Some [0; 1; 2] /\ sequence_range (fun _ => []) ex_pair 0 = Panic /\ sequence_range (fun _ => [0; 0; 0]) ex_pair 1 = Ok [3; 4; 0; 0; 0].
Proof. repeat split; reflexivity. Qed.
