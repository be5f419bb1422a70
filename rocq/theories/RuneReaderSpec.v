(** What is asked of the reader of characters (C92). *)
From Verif Require Import Base RuneReaderModel.
Open Scope list_scope.

(** What the [k]-th call (from 0) on a reader of some characters has to return: the [k]-th character, or
    the end if there is none. *)
Definition call_returns (src : list N) (k : nat) (x : rune_read) : Prop :=
  (exists c size, nth_error src k = Some c /\ x = GotRune c size) \/ ((length src <= k)%nat /\ x = GotEnd).

(** The sum of the sizes returned. *)
Definition sizes (l : list rune_read) : N :=
  fold_right N.add 0%N (map (fun x => match x with GotRune _ size => size | GotEnd => 0%N end) l).
