(** Model of the order on merges and of the symbol lists: /repo/model/bpe/word.go:14-92. *)
From Verif Require Import Base SliceModel SliceOpsModel BpeModel.
Open Scope Z_scope.

(** word.go:22-28. *)
Inductive ordering := Less | Equal | Greater.

(** word.go:34-36.  Merge.Eq. *)
Definition merge_eq (m o : mrg) : bool := (m_rank m =? m_rank o) && (m_pos m =? m_pos o).

(** word.go:38-55.  Merge.PartialCmp; the error is always nil and left out. *)
Definition partial_cmp (m o : mrg) : ordering :=
  let by_pos := if m_pos o <? m_pos m then Less else if m_pos m <? m_pos o then Greater else Equal in
  if negb (m_rank m =? m_rank o) then
    if m_rank o <? m_rank m then Less else if m_rank m <? m_rank o then Greater else by_pos
  else by_pos.

(** word.go:57-60.  Merge.Cmp. *)
Definition merge_cmp (m o : mrg) : ordering := partial_cmp m o.

Section Symbols.
  Variable zero : sym.
  Variable grow : nat -> nat.

  (** word.go:73-81.  Symbols.Insert: the result is the memory and the new header stored in [*ss]. *)
  Definition symbols_insert (M : mem (A:=sym)) (ss : slice) (s : sym) (i : Z) : res (mem (A:=sym) * slice) :=
    if (i <? 0) || (Z.of_nat (slen ss) <? i) then Err
    else
      let (M1, z) := literal M [s] in
      let (M2, b) := append zero grow M1 z (sread M1 (from ss (Z.to_nat i))) in
      Ok (append zero grow M2 (upto ss (Z.to_nat i)) (sread M2 b)).

  (** word.go:84-92.  Symbols.Remove. *)
  Definition symbols_remove (M : mem (A:=sym)) (ss : slice) (i : Z) : res (mem (A:=sym) * slice) :=
    if (i <? 0) || (Z.of_nat (slen ss) - 1 <? i) then Err
    else Ok (append zero grow M (upto ss (Z.to_nat i)) (sread M (from ss (Z.to_nat i + 1)))).
End Symbols.
