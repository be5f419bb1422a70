(** Vocabulary for the statements about patterns. *)
From Verif Require Import Base Utf8Model PatternModel.

(** Consecutive ranges from [a] to [b]. *)
Fixpoint partition (a b : Z) (l : list offsets_match) : Prop :=
  match l with
  | [] => a = b
  | ((s, e), _) :: l' => s = a /\ (s <= e)%Z /\ partition e b l'
  end.

(** What FindAllStringIndex returns over a text of [total] bytes: ranges in order,
    without overlap (possibly empty ones). *)
Fixpoint ordered_matches (lo total : Z) (l : list (Z * Z)) : Prop :=
  match l with
  | [] => (lo <= total)%Z
  | (a, b) :: l' => (lo <= a <= b)%Z /\ ordered_matches b total l'
  end.

(** The regexp of a pattern behaves like that. *)
Fixpoint well_behaved (p : pattern) : Prop :=
  match p with
  | PString _ find | PRegexp find => forall s, ordered_matches 0 (zlen s) (find s)
  | POther find => forall s, partition 0 (zlen s) (find s)
  | PInvert q => well_behaved q
  | _ => True
  end.

(** Ranges flagged as matches, in order. *)
Definition matched (l : list offsets_match) : list (Z * Z) := map fst (filter snd l).

(** The byte ranges of the characters of the text [encode rs] satisfying [f]. *)
Fixpoint char_ranges (f : N -> bool) (pos : Z) (rs : list N) : list (Z * Z) :=
  match rs with
  | [] => []
  | r :: rs' =>
      let next := (pos + zlen (encode_rune r))%Z in
      if f r then (pos, next) :: char_ranges f next rs' else char_ranges f next rs'
  end.

(** The pattern is one the library can invert. *)
Definition invertible (p : pattern) : Prop :=
  match p with PInvert _ | POther _ => False | _ => True end.
Definition supported (p : pattern) : Prop :=
  match p with PInvert q => invertible q | _ => True end.

(** No pattern flags an invalid byte as a match. *)
Definition fn_safe (s : str) (f : N -> bool) : Prop := valid_utf8 s \/ f rune_error = false.
Definition safe_on (s : str) (p : pattern) : Prop :=
  match p with
  | PRune r | PInvert (PRune r) => fn_safe s (fun c => (c =? r)%N)
  | PFn f | PInvert (PFn f) => fn_safe s f
  | _ => True
  end.

(** Two neighbouring ranges are never both outside a match. *)
Fixpoint alternating (l : list offsets_match) : Prop :=
  match l with
  | x :: ((y :: _) as l') => (snd x = true \/ snd y = true) /\ alternating l'
  | _ => True
  end.

(** The ranges outside the matches. *)
Definition unmatched (l : list offsets_match) : list (Z * Z) :=
  map fst (filter (fun m => negb (snd m)) l).
