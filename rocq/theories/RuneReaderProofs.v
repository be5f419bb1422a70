(** The reader of characters (C92). *)
From Verif Require Import Base BaseProofs Utf8Model Utf8Proofs RuneReaderModel RuneReaderSpec.
From Coq Require Import Lia.
Open Scope list_scope.

Lemma read_at src n : forall p k, (k < n)%nat -> nth_error (read_runes n (RR src p)) k = Some (match nth_error src (p + k) with Some c => GotRune c 1 | None => GotEnd end).
Proof.
  induction n as [|n IH]; intros p k H; [lia|]. cbn [read_runes]. unfold read_rune. cbn [rr_src rr_pos]. destruct (nth_error src p) as [c|] eqn:E.
  - destruct k as [|k]; cbn [nth_error fst snd]; [now rewrite Nat.add_0_r, E|]. rewrite IH by lia. now rewrite Nat.add_succ_r.
  - destruct k as [|k]; cbn [nth_error fst snd]; [now rewrite Nat.add_0_r, E|]. rewrite IH by lia.
    apply nth_error_None in E. now rewrite !(proj2 (nth_error_None src _)) by lia.
Qed.
Lemma sizes_read src n : forall p, sizes (read_runes n (RR src p)) = N.of_nat (Nat.min n (length src - p)).
Proof.
  induction n as [|n IH]; intros p; [reflexivity|]. cbn [read_runes]. unfold read_rune. cbn [rr_src rr_pos]. destruct (nth_error src p) as [c|] eqn:E; cbn [fst snd].
  - assert (L : (p < length src)%nat) by (apply nth_error_Some; congruence). change (sizes (GotRune c 1 :: read_runes n (RR src (S p)))) with (1 + sizes (read_runes n (RR src (S p))))%N. rewrite IH. lia.
  - apply nth_error_None in E. change (sizes (GotEnd :: read_runes n (RR src p))) with (0 + sizes (read_runes n (RR src p)))%N. rewrite IH. lia.
Qed.
Lemma rune_one c : scalar c -> length (encode_rune c) = 1%nat <-> (c < 128)%N.
Proof.
  intros S. unfold encode_rune. destruct (N.ltb_spec c 0x80) as [L|L]; [cbn; split; [intros _; exact L|reflexivity]|].
  split; [|intros X; exfalso; apply (N.lt_irrefl c); apply (N.lt_le_trans _ 128); [exact X|exact L]].
  destruct (c <? 0x800)%N; [discriminate|]. destruct (negb (scalarb c)); [discriminate|]. destruct (c <? 0x10000)%N; discriminate.
Qed.
Lemma rune_some c : (1 <= length (encode_rune c))%nat.
Proof. pose proof (encode_rune_nonempty c). destruct (encode_rune c); [congruence|cbn; lia]. Qed.
Lemma encode_length src : Forall scalar src -> (length src <= length (encode src))%nat /\ (length (encode src) = length src <-> Forall (fun c => (c < 128)%N) src).
Proof.
  induction 1 as [|c src S F [IH1 IH2]]; [split; [cbn; lia|split; [constructor|reflexivity]]|]. rewrite encode_cons, app_length. cbn [length]. pose proof (rune_some c) as R. split; [lia|]. rewrite Forall_cons_iff, <- IH2, <- (rune_one c S). lia.
Qed.
