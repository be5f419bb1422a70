(** Go's UTF-8 primitives (package unicode/utf8 and the language's [range] and
    conversions over strings), which the whole library relies on.  Strings are
    byte lists ([str]), runes are numbers. *)
From Verif Require Import Base.
Local Open Scope N_scope.

(** utf8.RuneError, U+FFFD. *)
Definition rune_error : N := 0xFFFD.

(** A rune that can be encoded: below the surrogates or between them and
    U+10FFFF (utf8.ValidRune). *)
Definition scalar (r : N) : Prop := r < 0xD800 \/ (0xE000 <= r /\ r <= 0x10FFFF).
Definition scalarb (r : N) : bool := (r <? 0xD800) || ((0xE000 <=? r) && (r <=? 0x10FFFF)).

(** The byte sequence of a scalar (utf8.EncodeRune / [string(r)]); anything
    else is encoded as U+FFFD. *)
Definition encode_rune (r : N) : str :=
  if r <? 0x80 then [r]
  else if r <? 0x800 then [0xC0 + r / 64; 0x80 + r mod 64]
  else if negb (scalarb r) then [0xEF; 0xBF; 0xBD]
  else if r <? 0x10000 then
    [0xE0 + r / 4096; 0x80 + (r / 64) mod 64; 0x80 + r mod 64]
  else [0xF0 + r / 262144; 0x80 + (r / 4096) mod 64; 0x80 + (r / 64) mod 64; 0x80 + r mod 64].

(** [string(runes)]. *)
Definition encode (rs : list N) : str := concat (map encode_rune rs).

Definition between (lo hi b : N) : bool := (lo <=? b) && (b <=? hi).

(** utf8.DecodeRuneInString: the first rune and its width in bytes; an invalid
    sequence yields (U+FFFD, 1). *)
Definition decode_rune (s : str) : N * nat :=
  match s with
  | [] => (rune_error, 0%nat)
  | b0 :: t =>
      if b0 <? 0x80 then (b0, 1%nat)
      else if b0 <? 0xC2 then (rune_error, 1%nat)
      else if b0 <? 0xE0 then
        match t with
        | b1 :: _ =>
            if between 0x80 0xBF b1
            then ((b0 - 0xC0) * 64 + (b1 - 0x80), 2%nat) else (rune_error, 1%nat)
        | _ => (rune_error, 1%nat)
        end
      else if b0 <? 0xF0 then
        match t with
        | b1 :: b2 :: _ =>
            if between (if b0 =? 0xE0 then 0xA0 else 0x80)
                       (if b0 =? 0xED then 0x9F else 0xBF) b1 && between 0x80 0xBF b2
            then ((b0 - 0xE0) * 4096 + (b1 - 0x80) * 64 + (b2 - 0x80), 3%nat)
            else (rune_error, 1%nat)
        | _ => (rune_error, 1%nat)
        end
      else if b0 <? 0xF5 then
        match t with
        | b1 :: b2 :: b3 :: _ =>
            if between (if b0 =? 0xF0 then 0x90 else 0x80)
                       (if b0 =? 0xF4 then 0x8F else 0xBF) b1
               && between 0x80 0xBF b2 && between 0x80 0xBF b3
            then ((b0 - 0xF0) * 262144 + (b1 - 0x80) * 4096 + (b2 - 0x80) * 64 + (b3 - 0x80), 4%nat)
            else (rune_error, 1%nat)
        | _ => (rune_error, 1%nat)
        end
      else (rune_error, 1%nat)
  end.

Fixpoint runes_f (fuel : nat) (s : str) : list (N * nat) :=
  match fuel with
  | O => []
  | S fuel' =>
      match s with
      | [] => []
      | _ => let '(r, w) := decode_rune s in (r, w) :: runes_f fuel' (skipn w s)
      end
  end.

(** [for _, r := range s]: the runes of a string with the number of bytes each
    of them occupies in the string. *)
Definition runes_w (s : str) : list (N * nat) := runes_f (length s) s.

(** [[]rune(s)]. *)
Definition runes (s : str) : list N := map fst (runes_w s).

(** utf8.ValidString, as a specification: the string is the encoding of some
    sequence of scalars. *)
Definition valid_utf8 (s : str) : Prop := exists rs, Forall scalar rs /\ s = encode rs.
