(** C92: the reader of characters. *)
From Verif Require Import Base Utf8Model RuneReaderModel RuneReaderSpec RuneReaderProofs.
From Coq Require Import Lia.
Open Scope list_scope.

(** However often it is called, the reader returns the characters in their order and then the end. *)
Theorem C92_reads : forall src n k, (k < n)%nat -> exists x, nth_error (read_runes n (new_rune_reader src)) k = Some x /\ call_returns src k x.
Proof.
  intros src n k H. eexists. split; [exact (read_at src n 0 k H)|]. cbn [Nat.add]. unfold call_returns. destruct (nth_error src k) as [c|] eqn:E; [left; now exists c, 1%N|right]. now apply nth_error_None in E.
Qed.
Print Assumptions C92_reads.

(** The sizes add up to the number of characters read, so that places computed from them are places in
    the list of characters. *)
Theorem C92_places : forall src n, let r := read_runes n (new_rune_reader src) in
  map (fun c => GotRune c 1) (firstn (N.to_nat (sizes r)) src) = firstn (N.to_nat (sizes r)) r /\ sizes r = N.of_nat (Nat.min n (length src)).
Proof.
  intros src n. cbv zeta. unfold new_rune_reader. rewrite (sizes_read src n 0), Nat.sub_0_r, Nat2N.id. split; [|reflexivity].
  revert n. assert (G : forall n p, map (fun c => GotRune c 1) (firstn (Nat.min n (length src - p)) (skipn p src)) = firstn (Nat.min n (length src - p)) (read_runes n (RR src p))).
  { induction n as [|n IH]; intros p; [reflexivity|]. cbn [read_runes]. unfold read_rune. cbn [rr_src rr_pos]. destruct (nth_error src p) as [c|] eqn:E; cbn [fst snd].
    - assert (L : (p < length src)%nat) by (apply nth_error_Some; congruence). replace (length src - p)%nat with (S (length src - S p)) by lia. cbn [Nat.min firstn].
      assert (Es : skipn p src = c :: skipn (S p) src). { clear -E. revert p E. induction src as [|d src IH]; intros [|p] E; try discriminate; [now injection E as ->|exact (IH p E)]. }
      rewrite Es. cbn [firstn map]. now rewrite IH.
    - apply nth_error_None in E. replace (length src - p)%nat with 0%nat by lia. reflexivity. }
  intros n. specialize (G n 0%nat). now rewrite Nat.sub_0_r in G.
Qed.
Print Assumptions C92_places.

(** Refuted: that the sizes are those of the characters in UTF-8, as io.RuneReader asks.  They add up to
    the length of the text in bytes only if all characters are ASCII. *)
Theorem C92_bytes_refuted : forall src n, Forall scalar src -> (length src <= n)%nat ->
  (sizes (read_runes n (new_rune_reader src)) = N.of_nat (length (encode src)) <-> Forall (fun c => (c < 128)%N) src).
Proof.
  intros src n S H. unfold new_rune_reader. rewrite (sizes_read src n 0), Nat.sub_0_r. destruct (encode_length src S) as [_ E]. rewrite <- E. lia.
Qed.
Print Assumptions C92_bytes_refuted.

(** "hé": two characters of size 1, then the end twice; the text has three bytes. *)
Example C92_example : read_runes 4 (new_rune_reader [104; 233]%N) = [GotRune 104 1; GotRune 233 1; GotEnd; GotEnd] /\
  Forall scalar [104; 233]%N /\ length (encode [104; 233]%N) = 3%nat.
Proof. split; [reflexivity|]. split; [|reflexivity]. repeat (constructor; [left; reflexivity|]). constructor. Qed.
