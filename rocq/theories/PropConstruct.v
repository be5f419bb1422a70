(** Encodings made from tokens (C86) and the sequences of merged encodings (C87). *)
From Verif Require Import Base EncodingModel EncodingSpec BpeModel ConstructModel ConstructSpec ConstructProofs.
Open Scope Z_scope.

(** ** C86 *)
Theorem C86_tokens_partial : forall l t, holds l (from_tokens l t) /\ typed 0 (from_tokens l t).
Proof. exact (fun l t => conj (from_holds l t) (from_types l t)). Qed.
Print Assumptions C86_tokens_partial.

(** Every type id but 0 is ignored. *)
Theorem C86_types_refuted : forall l t, l <> [] -> t <> 0 -> ~ typed t (from_tokens l t).
Proof. exact from_typed. Qed.
Print Assumptions C86_types_refuted.

(** The words are missing, for every list of tokens ... *)
Theorem C86_words_refuted : forall l t, l <> [] -> ~ wordless (from_tokens l t).
Proof. exact from_words. Qed.
Print Assumptions C86_words_refuted.

(** ... so that every truncation that would remove a token panics, ... *)
Theorem C86_truncate_refuted : forall l t max stride, stride < max -> 0 < max < zlen l -> truncate (from_tokens l t) max stride = Panic.
Proof. exact from_truncated. Qed.
Print Assumptions C86_truncate_refuted.

Theorem C86_truncate_partial : forall l t max stride, stride < max -> max <> 0 -> zlen l <= max ->
  truncate (from_tokens l t) max stride = Ok (from_tokens l t, false).
Proof. exact from_fits. Qed.
Print Assumptions C86_truncate_partial.

(** ... and after a merge the first tokens are said to be in the words of the first tokens of the other
    encoding. *)
Theorem C86_merge_refuted : forall l t growing p m i tok,
  merge_with growing (from_tokens l t) p = Ok m -> nth_error l i = Some tok ->
  nth_error (ids m) i = Some (t_id tok) /\ token2word m (Z.of_nat i) = nth_error (words p) i.
Proof. exact from_merged. Qed.
Print Assumptions C86_merge_refuted.

Definition ct_tokens : list token := [Tok 12 [72; 105]%N (0, 2); Tok 14 [33]%N (2, 3)].
Definition ct_other : Encoding := mkEnc [7; 8] [1; 1] [[97]%N; [98]%N] [(0, 1); (1, 2)] [0; 0] [1; 1] [5; 6] [] (Some [(0, [0; 1])]).
Example C86_computed :
  ids (from_tokens ct_tokens 1) = [12; 14] /\ type_ids (from_tokens ct_tokens 1) = [0; 0] /\ words (from_tokens ct_tokens 1) = [] /\
  truncate (from_tokens ct_tokens 1) 1 0 = Panic /\ truncate (from_tokens ct_tokens 1) 2 0 = Ok (from_tokens ct_tokens 1, false) /\
  match merge_with true (from_tokens ct_tokens 1) ct_other with
  | Ok m => ids m = [12; 14; 7; 8] /\ words m = [5; 6] /\ token2word m 0 = Some 5 /\ token2word m 2 = None
  | _ => False end.
Proof. vm_compute. tauto. Qed.

(** ** C87 *)
(** mergeEncoding returns exactly for encodings without overflowing parts ... *)
Theorem C87_outcome : forall e p growing, ranged p ->
  (overflowing e = [] /\ overflowing p = [] /\ exists m, merge_encoding e p growing = Ok m) \/
  ((overflowing e <> [] \/ overflowing p <> []) /\ merge_encoding e p growing = Fatal).
Proof. exact merged_outcome. Qed.
Print Assumptions C87_outcome.

(** ... and puts the tokens of the second behind those of the first. *)
Theorem C87_tokens : forall e p growing m, merge_encoding e p growing = Ok m -> flat m = enc_append e p (growth growing e) /\ overflowing m = [].
Proof. exact merged_flat. Qed.
Print Assumptions C87_tokens.

(** It remembers the sequences of the second encoding, and all if this one has none ... *)
Theorem C87_sequences_partial : forall e p growing m k, merge_encoding e p growing = Ok m -> ranged p ->
  range_of p k <> None \/ (forall j, range_of p j = None) -> remembered e p m k.
Proof. exact merged_remembered. Qed.
Print Assumptions C87_sequences_partial.

(** ... and forgets every sequence that is only in the first otherwise. *)
Theorem C87_sequences_refuted : forall e p growing m k j, merge_encoding e p growing = Ok m -> ranged p ->
  positions e k <> [] -> range_of p k = None -> range_of p j <> None -> positions m k = [] /\ ~ remembered e p m k.
Proof. exact merged_lost. Qed.
Print Assumptions C87_sequences_refuted.

(** MergeWith remembers a sequence that is in one of the two ... *)
Theorem C87_merge_with_partial : forall growing e p m k, merge_with growing e p = Ok m -> ranged p ->
  positions e k = [] \/ range_of p k = None -> remembered e p m k.
Proof. exact with_remembered. Qed.
Print Assumptions C87_merge_with_partial.

(** ... and forgets where a sequence that is in both was in the first. *)
Theorem C87_merge_with_refuted : forall growing e p m k, merge_with growing e p = Ok m -> ranged p ->
  positions e k <> [] -> range_of p k <> None -> positions m k = map (Z.add (enc_len e)) (positions p k) /\ ~ remembered e p m k.
Proof. exact with_lost. Qed.
Print Assumptions C87_merge_with_refuted.

Definition ct_first : Encoding := mkEnc [3] [0] [[99]%N] [(0, 4)] [0] [1] [0] [] (Some [(0, [0]); (2, [0])]).
Example C87_meets : ranged ct_other /\ range_of ct_other 0 = Some [0; 1] /\ range_of ct_other 2 = None /\ positions ct_first 0 = [0] /\ positions ct_first 2 = [0].
Proof.
  split; [|vm_compute; tauto]. split; [repeat constructor; cbn; tauto|]. constructor; [|constructor]. exists 0, 2%nat. cbn. repeat split; lia.
Qed.
Example C87_computed :
  match merge_encoding ct_first ct_other true, merge_with true ct_first ct_other with
  | Ok m, Ok n => ids m = [3; 7; 8] /\ offsets m = [(0, 4); (4, 5); (5, 6)] /\ positions m 0 = [0; 1; 2] /\ positions m 2 = [] /\
                  positions n 0 = [1; 2] /\ positions n 2 = [0]
  | _, _ => False end.
Proof. vm_compute. tauto. Qed.
