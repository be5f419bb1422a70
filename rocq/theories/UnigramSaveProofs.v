(** Proofs about building and saving Unigram models (C79). *)
From Coq Require Import String QArith.
From Verif Require Import Base BaseProofs Utf8Model Utf8Proofs NormalizedProofs BpeModel UnigramModel WordPieceTrainSpec ConfigModel UnigramSaveModel UnigramSaveSpec.
Open Scope Z_scope.
Open Scope list_scope.

Lemma ub_all ops : forall c, fold_left ub_set ops c =
  UB (last_set u_vocab (ub_vocab c) ops) (last_set u_unk (ub_unk c) ops) (last_set u_bytes (ub_bytes c) ops) (last_set u_fuse (ub_fuse c) ops).
Proof. induction ops as [|o ops IH]; intros c; [now destruct c|]. cbn [fold_left]. rewrite IH. now destruct o. Qed.

Lemma ids_nonneg (voc : list (str * Q)) t i : vget t (ug_ids voc) = Some i -> 0 <= i.
Proof.
  unfold ug_ids. generalize (combine (seq 0 (length voc)) voc). intros l.
  assert (M : forall s j, vget s (@nil (str * Z)) = Some j -> 0 <= j) by discriminate. revert M. generalize (@nil (str * Z)).
  induction l as [|p l IH]; intros m M; cbn [fold_left]; [apply M|]. apply IH. intros s j. unfold vget. rewrite ag_aset.
  - destruct (str_eqb s (fst (snd p))); [intros E; injection E as <-; lia|apply M].
  - intros x y. apply str_eqb_eq.
Qed.

Lemma negative_unk voc i b f : i < 0 -> exists u, @ug_build Q voc (Some i) b f = Ok u /\ ug_unk u = Some i /\ ug_id_to_token u i = None /\ forall t, ug_token_to_id u t <> Some i.
Proof.
  intros Hi. unfold ug_build. destruct (Z.leb_spec (zlen voc) i) as [K|_]; [unfold zlen in K; lia|].
  eexists. split; [reflexivity|]. split; [reflexivity|]. split.
  - unfold ug_id_to_token. now rewrite (proj2 (Z.ltb_lt i 0) Hi).
  - intros t H. apply ids_nonneg in H. lia.
Qed.

Lemma load_panics u dec (order : vocab -> vocab) to32 : ug_vocab u <> [] -> create_model order to32 (Some (saved_file u)) dec = Panic.
Proof.
  intros N. destruct u as [[|p voc] unk b f]; [contradiction|]. destruct unk; reflexivity.
Qed.
