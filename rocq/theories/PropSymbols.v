(** C89: the order on merges and the symbol lists of the BPE model. *)
From Verif Require Import Base SliceModel SliceProofs SliceOpsModel BpeModel SymbolsModel SymbolsSpec SymbolsProofs.
Open Scope Z_scope.

(** A merge is greater than another exactly if it comes first: the queue that pops the greatest
    would pop the lowest rank, and of equal ranks the leftmost. *)
Theorem C89_order : forall m o,
  (merge_cmp m o = Greater <-> before (m_rank m) (m_pos m) (m_rank o) (m_pos o)) /\
  (merge_cmp m o = Less <-> before (m_rank o) (m_pos o) (m_rank m) (m_pos m)) /\
  (merge_cmp m o = Equal <-> merge_eq m o = true) /\
  (merge_eq m o = true <-> m_rank m = m_rank o /\ m_pos m = m_pos o).
Proof.
  intros m o. split; [exact (cmp_greater m o)|]. split; [exact (cmp_less m o)|]. split; [exact (cmp_equal m o)|].
  unfold merge_eq. now rewrite andb_true_iff, !Z.eqb_eq.
Qed.
Print Assumptions C89_order.

(** The queue of MergeAll (word.go:265-277) does not use this order: it does not tell two merges
    of the same rank apart. *)
Theorem C89_queue_refuted : forall m o, m_rank m = m_rank o -> m_pos m < m_pos o ->
  merge_cmp m o = Greater /\ mrg_gt m o = false /\ mrg_gt o m = false.
Proof.
  intros m o R P. split; [apply cmp_greater; right; auto|]. unfold mrg_gt. rewrite R. now rewrite Z.ltb_irrefl.
Qed.
Print Assumptions C89_queue_refuted.

(** Inserting and removing a symbol; an index out of range is an error. *)
Theorem C89_insert : forall zero grow (M : mem (A:=sym)) ss s i, valid M ss ->
  (0 <= i <= Z.of_nat (slen ss) -> exists M' r, symbols_insert zero grow M ss s i = Ok (M', r) /\ valid M' r /\
     sread M' r = firstn (Z.to_nat i) (sread M ss) ++ s :: skipn (Z.to_nat i) (sread M ss)) /\
  (i < 0 \/ Z.of_nat (slen ss) < i -> symbols_insert zero grow M ss s i = Err).
Proof.
  intros zero grow M ss s i V. split; [exact (symbols_insert_ok zero grow M ss s i V)|].
  intros H. unfold symbols_insert. now replace ((i <? 0) || _) with true by lia.
Qed.
Print Assumptions C89_insert.
Theorem C89_remove : forall zero grow (M : mem (A:=sym)) ss i, valid M ss ->
  (0 <= i < Z.of_nat (slen ss) -> exists M' r, symbols_remove zero grow M ss i = Ok (M', r) /\ valid M' r /\
     sread M' r = firstn (Z.to_nat i) (sread M ss) ++ skipn (S (Z.to_nat i)) (sread M ss)) /\
  (i < 0 \/ Z.of_nat (slen ss) <= i -> symbols_remove zero grow M ss i = Err).
Proof.
  intros zero grow M ss i V. split; [exact (symbols_remove_ok zero grow M ss i V)|].
  intros H. unfold symbols_remove. now replace ((i <? 0) || _) with true by lia.
Qed.
Print Assumptions C89_remove.

Example C89_order_meets :
  merge_cmp (Mrg 4 2 9) (Mrg 1 3 8) = Greater /\ merge_cmp (Mrg 4 2 9) (Mrg 1 2 9) = Less /\ merge_cmp (Mrg 4 2 9) (Mrg 4 2 9) = Equal.
Proof. auto. Qed.
Example C89_lists_meet :
  let a := Sym 1 (-1) 1 1 in let b := Sym 2 0 (-1) 1 in let c := Sym 3 1 (-1) 2 in
  let M := [[a; b]] in let ss := mkS 0 0 2 2 in
  valid M ss /\
  (match symbols_insert a (fun n => n) M ss c 1 with Ok (M', r) => sread M' r | _ => [] end) = [a; c; b] /\
  (match symbols_remove a (fun n => n) M ss 0 with Ok (M', r) => sread M' r | _ => [] end) = [b] /\
  symbols_remove a (fun n => n) M ss 2 = Err.
Proof. cbv zeta. split; [cbv; lia|]. repeat split. Qed.
