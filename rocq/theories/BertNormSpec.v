(** What the BERT normalizer documents, character by character. *)
From Verif Require Import Base Utf8Model.
Open Scope N_scope.

(** Cleaning drops NUL, U+FFFD and control characters ([cc]: Unicode categories Cc and
    Cf) other than tab, line feed and carriage return... *)
Definition dropped (cc : N -> bool) (c : N) : bool :=
  (c =? 0) || (c =? 0xfffd) || (cc c && negb (c =? 9) && negb (c =? 10) && negb (c =? 13)).
(** ... and turns these three into spaces. *)
Definition white (c : N) : bool := (c =? 32) || (c =? 9) || (c =? 10) || (c =? 13).
Definition clean_documented (cc : N -> bool) (rs : list N) : list N :=
  map (fun c => if white c then 32 else c) (filter (fun c => negb (dropped cc c)) rs).

(** What the code does: white space becomes a space only right before a dropped
    character. *)
Definition next_is (f : N -> bool) (rs : list N) : bool := match rs with c :: _ => f c | [] => false end.
Fixpoint cleaned (cc : N -> bool) (rs : list N) : list N :=
  match rs with
  | [] => []
  | c :: rs' =>
      if dropped cc c then cleaned cc rs'
      else (if white c && next_is (dropped cc) rs' then 32 else c) :: cleaned cc rs'
  end.
(** The same as edits: what each character becomes. *)
Fixpoint clean_edits (cc : N -> bool) (rs : list N) : list (N * option (list N)) :=
  match rs with
  | [] => []
  | c :: rs' =>
      (c, if dropped cc c then None else Some [if white c && next_is (dropped cc) rs' then 32 else c])
        :: clean_edits cc rs'
  end.

(** The blocks of Chinese characters listed at bert.go:92-99 (with 2B820, as in the
    table, for 2B920). *)
Definition extension_a (c : N) : bool := (0x3400 <=? c) && (c <=? 0x4dbf).
Definition chinese (c : N) : bool :=
  ((0x4e00 <=? c) && (c <=? 0x9fff)) || extension_a c || ((0x20000 <=? c) && (c <=? 0x2a6df)) ||
  ((0x2a700 <=? c) && (c <=? 0x2b73f)) || ((0x2b740 <=? c) && (c <=? 0x2b81f)) ||
  ((0x2b820 <=? c) && (c <=? 0x2ceaf)) || ((0xf900 <=? c) && (c <=? 0xfaff)) || ((0x2f800 <=? c) && (c <=? 0x2fa1f)).
(** A space on each side of every Chinese character. *)
Definition spaced (rs : list N) : list N := flat_map (fun c => if chinese c then [32; c; 32] else [c]) rs.

(** The text after the chosen steps, for a text with nothing to clean; [lower] is the
    lower-case mapping and [mn] the category Mn (combining accents). *)
Definition bert_text (chinese lowercase accents : bool) (mn : N -> bool) (lower : str -> str) (rs : list N) : str :=
  let t := encode (if chinese then spaced rs else rs) in
  let t := if lowercase then lower t else t in
  if accents then encode (filter (fun c => negb (mn c)) (runes t)) else t.
