(** Proofs about the order on merges and the symbol lists. *)
From Verif Require Import Base SliceModel SliceProofs SliceOpsModel SliceOpsProofs BpeModel SymbolsModel SymbolsSpec.
Open Scope Z_scope.

Lemma cmp_cases m o :
  match merge_cmp m o with
  | Greater => before (m_rank m) (m_pos m) (m_rank o) (m_pos o)
  | Equal => m_rank m = m_rank o /\ m_pos m = m_pos o
  | Less => before (m_rank o) (m_pos o) (m_rank m) (m_pos m)
  end.
Proof.
  unfold merge_cmp, partial_cmp, before.
  destruct (Z.eqb_spec (m_rank m) (m_rank o)), (Z.ltb_spec (m_rank o) (m_rank m)), (Z.ltb_spec (m_rank m) (m_rank o)),
    (Z.ltb_spec (m_pos o) (m_pos m)), (Z.ltb_spec (m_pos m) (m_pos o)); cbn [negb]; lia.
Qed.

Lemma cmp_greater m o : merge_cmp m o = Greater <-> before (m_rank m) (m_pos m) (m_rank o) (m_pos o).
Proof. pose proof (cmp_cases m o) as H. unfold before in *. destruct (merge_cmp m o); split; intros; try discriminate; try reflexivity; try lia; exact H. Qed.
Lemma cmp_less m o : merge_cmp m o = Less <-> before (m_rank o) (m_pos o) (m_rank m) (m_pos m).
Proof. pose proof (cmp_cases m o) as H. unfold before in *. destruct (merge_cmp m o); split; intros; try discriminate; try reflexivity; try lia; exact H. Qed.
Lemma cmp_equal m o : merge_cmp m o = Equal <-> merge_eq m o = true.
Proof.
  pose proof (cmp_cases m o) as H. unfold merge_eq, before in *. rewrite andb_true_iff, !Z.eqb_eq.
  destruct (merge_cmp m o); split; intros; try discriminate; try reflexivity; try lia.
Qed.

Lemma symbols_insert_ok zero grow (M : mem (A:=sym)) ss s i : valid M ss -> 0 <= i <= Z.of_nat (slen ss) ->
  exists M' r, symbols_insert zero grow M ss s i = Ok (M', r) /\ valid M' r /\
    sread M' r = firstn (Z.to_nat i) (sread M ss) ++ s :: skipn (Z.to_nat i) (sread M ss).
Proof.
  intros V H. change (symbols_insert zero grow M ss s i) with (insert zero grow M ss s i).
  destruct (insert_ok zero grow M ss s i V H) as (M' & r & R1 & R2 & R3 & _). eauto.
Qed.
Lemma symbols_remove_ok zero grow (M : mem (A:=sym)) ss i : valid M ss -> 0 <= i < Z.of_nat (slen ss) ->
  exists M' r, symbols_remove zero grow M ss i = Ok (M', r) /\ valid M' r /\
    sread M' r = firstn (Z.to_nat i) (sread M ss) ++ skipn (S (Z.to_nat i)) (sread M ss).
Proof.
  intros V H. assert (E : symbols_remove zero grow M ss i = delete zero grow M ss i).
  { unfold symbols_remove, delete. replace ((i <? 0) || _) with false by lia. replace ((i <? 0) || _) with false by lia.
    now replace (Z.of_nat (slen ss) <? i + 1) with false by lia. }
  rewrite E. destruct (delete_ok zero grow M ss i V H) as (M' & r & R1 & R2 & R3 & _). eauto.
Qed.
