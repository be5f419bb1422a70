(** Model of the reader of characters: /repo/util/rune-reader.go. *)
From Verif Require Import Base.
Open Scope list_scope.

(** util/rune-reader.go:31-34.  The characters and the place of the next one; the place is only
    changed by reading, so it is never negative. *)
Record rune_reader := RR { rr_src : list N; rr_pos : nat }.

(** What one call returns: a character and its size, or (-1, 0, io.EOF) (46). *)
Inductive rune_read := GotRune (c : N) (size : N) | GotEnd.

(** util/rune-reader.go:37-41.  [NewRuneReader]. *)
Definition new_rune_reader (r : list N) : rune_reader := RR r 0.

(** util/rune-reader.go:44-53.  [ReadRune]: the result and the reader afterwards. *)
Definition read_rune (r : rune_reader) : rune_read * rune_reader :=
  match nth_error (rr_src r) (rr_pos r) with
  | None => (GotEnd, r)
  | Some c => (GotRune c 1, RR (rr_src r) (S (rr_pos r)))
  end.

(** The results of [n] calls, one after the other. *)
Fixpoint read_runes (n : nat) (r : rune_reader) : list rune_read :=
  match n with
  | O => []
  | S n' => let x := read_rune r in fst x :: read_runes n' (snd x)
  end.
