(** Model of /repo/normalizer/pattern.go. *)
From Verif Require Import Base Utf8Model.

(** pattern.go:23-26.  [OffsetsMatch]: byte range and match flag. *)
Notation offsets_match := ((Z * Z) * bool)%type (only parsing).

(** pattern.go:56-78 (rune) and 240-262 (function): the loop over the characters
    of the text.  [i] is the byte index of the current one, [prev] is [prevStart],
    [has] is [hasPrevious].  The match ends [len(string(char))] bytes further, which
    for an invalid byte (read as U+FFFD, one byte wide) is three. *)
Fixpoint fn_loop (f : N -> bool) (l : list (N * nat)) (i prev : Z) (has : bool)
  : list offsets_match * (Z * bool) :=
  match l with
  | [] => ([], (prev, has))
  | (r, w) :: l' =>
      if f r then
        let next := (i + zlen (encode_rune r))%Z in
        let '(subs, st) := fn_loop f l' (i + Z.of_nat w) next false in
        ((if has then [((prev, i), false)] else []) ++ ((i, next), true) :: subs, st)
      else fn_loop f l' (i + Z.of_nat w) prev true
  end.

(** pattern.go:224-272.  FnPattern.FindMatches. *)
Definition fn_matches (f : N -> bool) (s : str) : list offsets_match :=
  if length s =? 0 then [((0, 0)%Z, false)]
  else
    let '(subs, (prev, has)) := fn_loop f (runes_w s) 0 0 false in
    subs ++ (if has then [((prev, zlen s), false)] else []).

(** pattern.go:39-87.  RunePattern.FindMatches is the same loop with an equality
    test. *)
Definition rune_matches (r : N) (s : str) : list offsets_match :=
  fn_matches (fun c => (c =? r)%N) s.

(** pattern.go:147-171.  The loop of findMatches over the regexp's matches. *)
Fixpoint re_loop (ms : list (Z * Z)) (cur : Z) : list offsets_match * Z :=
  match ms with
  | [] => ([], cur)
  | m :: ms' =>
      let cur1 := (cur + (snd m - fst m))%Z in
      match ms' with
      | next :: _ =>
          if (snd m =? fst next)%Z then
            let '(subs, c) := re_loop ms' cur1 in ((m, true) :: subs, c)
          else
            let '(subs, c) := re_loop ms' (cur1 + (fst next - snd m)) in
            ((m, true) :: ((snd m, fst next), false) :: subs, c)
      | [] => ([(m, true)], cur1)
      end
  end.

(** pattern.go:117-185.  findMatches; [ms] is the result of FindAllStringIndex. *)
Definition re_matches (ms : list (Z * Z)) (s : str) : list offsets_match :=
  match ms with
  | [] => [((0, zlen s)%Z, false)]
  | m0 :: _ =>
      let '(first, cur) :=
        if (0 <? fst m0)%Z then ([((0, fst m0)%Z, false)], fst m0) else ([], 0%Z) in
      let '(subs, c) := re_loop ms cur in
      first ++ subs ++ (if (c <? zlen s)%Z then [((c, zlen s), false)] else [])
  end.

(** pattern.go:11-19, 30-32, 91-93, 187-189, 215-217, 277-279.  The pattern kinds.  A string pattern is a regexp of its
    quoted text (110-114); [find] stands for FindAllStringIndex of the compiled
    regexp. *)
Inductive pattern :=
| PRune (r : N)
| PString (p : str) (find : str -> list (Z * Z))
| PRegexp (find : str -> list (Z * Z))
| PFn (f : N -> bool)
| PInvert (p : pattern)
| POther (find : str -> list offsets_match).   (* a user-defined Pattern *)

(** pattern.go:306-314. *)
Definition invert (ms : list offsets_match) : list offsets_match :=
  map (fun m => (fst m, negb (snd m))) ms.

(** pattern.go:39-304.  FindMatches.  Invert supports the four kinds of this file
    only, by name of the dynamic type; everything else ends the process. *)
Definition find_matches (p : pattern) (s : str) : res (list offsets_match) :=
  let base (p : pattern) : res (list offsets_match) :=
    match p with
    | PRune r => Ok (rune_matches r s)
    | PString q find => if length q =? 0 then Ok [((0, zlen s)%Z, false)] else Ok (re_matches (find s) s)
    | PRegexp find => if length s =? 0 then Ok [((0, 0)%Z, false)] else Ok (re_matches (find s) s)
    | PFn f => Ok (fn_matches f s)
    | PInvert _ => Fatal
    | POther _ => Fatal
    end in
  match p with
  | PInvert q => do ms <- base q; Ok (invert ms)
  | POther find => Ok (find s)
  | _ => base p
  end.
