(** Property C22: pattern matches partition the text. *)
From Verif Require Import Base Utf8Model PatternModel PatternSpec PatternProofs.
Open Scope Z_scope.

(** FindMatches of every pattern kind returns consecutive ranges from 0 to the
    length of the text.  Missing: inverting an inverted or user-defined pattern, and
    rune/function patterns that match U+FFFD in text that is not UTF-8. *)
Theorem C22_partition_partial : forall p s,
  well_behaved p -> supported p -> safe_on s p ->
  exists ms, find_matches p s = Ok ms /\ partition 0 (zlen s) ms.
Proof. exact find_matches_partition. Qed.
Print Assumptions C22_partition_partial.

(** On valid text a rune or function pattern needs no condition. *)
Example C22_ex :
  let s := encode [97; 233; 32; 98; 32; 32]%N in
  find_matches (PFn (fun c => (c =? 32)%N)) s =
    Ok [((0, 3), false); ((3, 4), true); ((4, 5), false); ((5, 6), true); ((6, 7), true)] /\
  find_matches (PInvert (PRune 32)) s =
    Ok [((0, 3), true); ((3, 4), false); ((4, 5), true); ((5, 6), false); ((6, 7), false)] /\
  safe_on s (PInvert (PRune 32)).
Proof.
  split; [reflexivity|]. split; [reflexivity|].
  left. exists [97; 233; 32; 98; 32; 32]%N. split; [|reflexivity].
  repeat constructor; unfold scalar; lia.
Qed.

(** Two ranges outside the matches never touch (so the flags alternate up to
    consecutive matches). *)
Theorem C22_no_adjacent_gaps : forall p s ms,
  well_behaved p -> safe_on s p -> invertible p -> find_matches p s = Ok ms -> alternating ms.
Proof. exact find_matches_alternating. Qed.
Print Assumptions C22_no_adjacent_gaps.

(** The flagged ranges are the characters that satisfy the predicate... *)
Theorem C22_function_matches : forall f rs, Forall scalar rs ->
  find_matches (PFn f) (encode rs) = Ok (fn_matches f (encode rs)) /\
  matched (fn_matches f (encode rs)) = char_ranges f 0 rs.
Proof. intros f rs H. split; [reflexivity|]. exact (fn_matches_matched f rs H). Qed.
Print Assumptions C22_function_matches.

Theorem C22_rune_matches : forall r rs ms, Forall scalar rs ->
  find_matches (PRune r) (encode rs) = Ok ms -> matched ms = char_ranges (fun c => (c =? r)%N) 0 rs.
Proof. intros r rs ms H [= <-]. exact (fn_matches_matched _ rs H). Qed.
Print Assumptions C22_rune_matches.
Example C22_rune_ex : char_ranges (fun c => (c =? 233)%N) 0 [97; 233; 98; 233]%N = [(1, 3); (4, 6)].
Proof. reflexivity. Qed.

(** ... and the matches the regexp engine reported. *)
Theorem C22_regexp_matches : forall find s ms, s <> [] ->
  well_behaved (PRegexp find) -> find_matches (PRegexp find) s = Ok ms -> matched ms = find s.
Proof.
  intros find s ms Hs W. cbn [find_matches]. destruct s; [congruence|]. intros [= <-].
  apply re_matches_ok, W.
Qed.
Print Assumptions C22_regexp_matches.

Theorem C22_string_matches : forall q find s ms, q <> [] ->
  well_behaved (PString q find) -> find_matches (PString q find) s = Ok ms -> matched ms = find s.
Proof.
  intros q find s ms Hs W. cbn [find_matches]. destruct q; [congruence|]. intros [= <-].
  apply re_matches_ok, W.
Qed.
Print Assumptions C22_string_matches.
Example C22_regexp_ex :
  re_matches [(1, 2); (2, 2); (4, 6)] [1; 2; 3; 4; 5; 6; 7]%N =
  [((0, 1), false); ((1, 2), true); ((2, 2), true); ((2, 4), false); ((4, 6), true); ((6, 7), false)] /\
  ordered_matches 0 7 [(1, 2); (2, 2); (4, 6)].
Proof. cbn. repeat split; lia. Qed.

(** Inversion keeps the ranges and exchanges matches and non-matches. *)
Theorem C22_invert : forall p s ms, find_matches (PInvert p) s = Ok ms ->
  exists ms0, find_matches p s = Ok ms0 /\
    map fst ms = map fst ms0 /\ matched ms = unmatched ms0 /\ unmatched ms = matched ms0.
Proof. exact find_matches_invert. Qed.
Print Assumptions C22_invert.

(** The partition fails when a function (or rune) pattern matches U+FFFD and the
    text ends in a byte that is not UTF-8: the last range then ends past the end. *)
Theorem C22_invalid_utf8_refuted : forall f rs b,
  Forall scalar rs -> (128 <= b)%N -> f rune_error = true ->
  find_matches (PFn f) (encode rs ++ [b]) = Ok (fn_matches f (encode rs ++ [b])) /\
  ~ partition 0 (zlen (encode rs ++ [b])) (fn_matches f (encode rs ++ [b])).
Proof. intros f rs b H Hb Hf. split; [reflexivity|]. exact (fn_matches_overrun f rs b H Hb Hf). Qed.
Print Assumptions C22_invalid_utf8_refuted.
Example C22_invalid_ex :
  find_matches (PInvert (PRune 32)) [97; 255]%N = Ok [((0, 2), true)] /\
  find_matches (PFn (fun c => negb (c =? 32)%N)) [97; 255]%N = Ok [((0, 1), true); ((1, 4), true)].
Proof. split; reflexivity. Qed.

(** Inverting an inverted or a user-defined pattern ends the process. *)
Theorem C22_invert_invert_refuted : forall p s, find_matches (PInvert (PInvert p)) s = Fatal.
Proof. reflexivity. Qed.
Print Assumptions C22_invert_invert_refuted.
Theorem C22_invert_user_defined_refuted : forall find s, find_matches (PInvert (POther find)) s = Fatal.
Proof. reflexivity. Qed.
Print Assumptions C22_invert_user_defined_refuted.
