(** Where an added token is recognised (C59). *)
From Verif Require Import Base Utf8Model NormalizedModel NormalizedSpec AddedVocabSpec AddedPatternModel.
Open Scope Z_scope.

Definition byte_at (s : str) (i : Z) : option N := if i <? 0 then None else nth_error s (Z.to_nat i).
(** An edge of a run of ASCII letters, digits and underscores. *)
Definition in_word (b : option N) : bool :=
  match b with Some b => ((48 <=? b) && (b <=? 57) || (65 <=? b) && (b <=? 90) || (97 <=? b) && (b <=? 122) || (b =? 95))%N | None => false end.
Definition word_edge (s : str) (i : Z) : Prop := in_word (byte_at s (i - 1)) <> in_word (byte_at s i).
(** White space: tab, line feed, form feed, carriage return, space. *)
Definition blank_byte (b : N) : bool := existsb (N.eqb b) [9; 10; 12; 13; 32]%N.
Definition blank_at (s : str) (i : Z) : Prop := exists b, byte_at s i = Some b /\ blank_byte b = true.

(** The text of the token stands at (c, d)... *)
Definition stands (r : token_re) (s : str) (c d : Z) : Prop :=
  0 <= c /\ d = c + zlen (tr_text r) /\ d <= zlen s /\ part c d s = tr_text r /\
  (tr_bl r = true -> word_edge s c) /\ (tr_br r = true -> word_edge s d).
(** ...and with it (a, b) is recognised: one white space on each side where it is asked for. *)
Definition recognised (r : token_re) (s : str) (a b c d : Z) : Prop :=
  stands r s c d /\
  (a = c \/ tr_left r = true /\ a = c - 1 /\ blank_at s a) /\
  (b = d /\ ~ (tr_right r = true /\ blank_at s d) \/ tr_right r = true /\ b = d + 1 /\ blank_at s d).

(** A pattern with a text to look for. *)
Definition re_ok (r : token_re) : Prop := tr_text r <> [] /\ valid_utf8 (tr_text r).
(** The text [w] stands at (c, d). *)
Definition at_range (w s : str) (c d : Z) : Prop := 0 <= c /\ d = c + zlen w /\ d <= zlen s /\ part c d s = w.
(** The matches of an added token: ranges from left to right that satisfy [P], and every
    range satisfying [P] begins inside one of them. *)
Definition all_found (P : Z -> Z -> Prop) (s : str) (l : list (Z * Z)) : Prop :=
  ordered_from 0 (zlen s) l /\ Forall (fun m => P (fst m) (snd m)) l /\
  forall a b, P a b -> 0 <= a -> exists m, In m l /\ fst m <= a < snd m.
