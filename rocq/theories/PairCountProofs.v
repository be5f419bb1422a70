(** The sequential pair count (C46). *)
From Verif Require Import Base BpeModel BpeTokProofs TrainerModel TrainerSpec TrainerCountProofs PairCountModel.
Open Scope Z_scope.
Open Scope list_scope.

Lemma zindex_nth {A} (l : list A) k : zindex l (Z.of_nat k) = match nth_error l k with Some x => Ok x | None => Panic end.
Proof.
  unfold zindex. destruct (Z.leb_spec 0 (Z.of_nat k)); [|lia]. now rewrite Nat2Z.id.
Qed.
Lemma count_word_ok counts k c : nth_error counts k = Some c -> forall w s, count_word_m counts k w s = Ok (fold_left record_event (word_events k w c) s).
Proof.
  intros H. induction w as [|a [|b w] IH]; intros s; [reflexivity..|]. change (count_word_m counts k (a :: b :: w) s) with (do c <- zindex counts (Z.of_nat k); count_word_m counts k (b :: w) (pc_add (a, b) c (fst s), pw_add (a, b) k (snd s))). rewrite zindex_nth, H. cbn [bind]. rewrite IH. reflexivity.
Qed.
Lemma count_words_ok counts words : forall k s pre, length pre = k -> forall cs, counts = pre ++ cs -> length cs = length words ->
  count_words_m counts k words s = Ok (fold_left record_event (all_events (combine words cs) k) s).
Proof.
  induction words as [|w words IH]; intros k s pre Lp cs Ec L; [destruct cs; [reflexivity|discriminate]|]. destruct cs as [|c cs]; [discriminate|].
  cbn [count_words_m]. rewrite (count_word_ok counts k c) by (rewrite Ec, nth_error_app2, Lp, Nat.sub_diag by lia; reflexivity). cbn [bind].
  rewrite (IH (S k) _ (pre ++ [c])) with (cs := cs); [|rewrite app_length; cbn; lia|now rewrite <- app_assoc|cbn in L; lia].
  f_equal. unfold all_events. cbn [length combine seq flat_map fst snd]. now rewrite fold_left_app.
Qed.
Lemma count_pairs_m_ok words counts : length counts = length words -> exists r, count_pairs_m words counts = Ok r /\ pair_table_of words counts (fun p => aget pair_eqb p (fst r)) (fun p => aget pair_eqb p (snd r)).
Proof.
  intros L. unfold count_pairs_m. rewrite (count_words_ok counts words 0 _ [] eq_refl counts eq_refl L). eexists. split; [reflexivity|]. exact (events_table words counts L).
Qed.
Lemma count_word_short counts k w s : (length counts <= k)%nat -> count_word_m counts k w s = if (length w <=? 1)%nat then Ok s else Panic.
Proof.
  intros H. destruct w as [|a [|b w]]; [reflexivity..|]. cbn [count_word_m length Nat.leb]. rewrite zindex_nth, (proj2 (nth_error_None counts k) H). reflexivity.
Qed.
Lemma count_words_short counts words : forall k s, (exists i w, nth_error words i = Some w /\ (2 <= length w)%nat /\ (length counts <= k + i)%nat) <-> count_words_m counts k words s = Panic.
Proof.
  induction words as [|w words IH]; intros k s.
  - split; [intros (i & w & H & _); destruct i; discriminate|discriminate].
  - cbn [count_words_m]. destruct (Nat.le_gt_cases (length counts) k) as [H|H].
    + rewrite count_word_short by exact H. destruct (Nat.leb_spec (length w) 1) as [Hw|Hw]; cbn [bind].
      * rewrite <- (IH (S k) s). split; [intros ([|i] & w' & E & H1 & H2)|intros (i & w' & E & H1 & H2)]; [cbn in E; injection E as ->; lia|exists i, w'; repeat split; [exact E|lia..]|exists (S i), w'; repeat split; [exact E|lia..]].
      * split; [reflexivity|]. intros _. exists 0%nat, w. repeat split; [lia..].
    + destruct (nth_error counts k) as [c|] eqn:E; [|apply nth_error_None in E; lia]. rewrite (count_word_ok counts k c E). cbn [bind]. rewrite <- (IH (S k)).
      split; [intros ([|i] & w' & Ew & H1 & H2)|intros (i & w' & Ew & H1 & H2)]; [lia|exists i, w'; repeat split; [exact Ew|lia..]|exists (S i), w'; repeat split; [exact Ew|lia..]].
Qed.
