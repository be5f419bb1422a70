(** Model of what the patterns of added tokens match: GetPattern and the use of the regexp
    sets in /repo/added-vocabulary.go. *)
From Verif Require Import Base Utf8Model NormalizedModel BpeSaveModel AddedVocabModel PipelineModel.
Open Scope Z_scope.

(** The pattern of an added token (added-vocabulary.go:125-172): what regexp.Compile makes of
    [(\s)?\b quoted text \b(\s)?], each of the four decorations being optional. *)
Record token_re := TRe {
  tr_left : bool;   (* 161-166: a white space in front, if there is one *)
  tr_bl : bool;     (* 132-136: \b in front *)
  tr_text : str;    (* 155, 158: the quoted text *)
  tr_br : bool;     (* 137-141: \b behind *)
  tr_right : bool   (* 161-168: a white space behind, if there is one *)
}.

Section Pattern.
  (** 175-180.  [isWordCharacter] (package unicode's tables). *)
  Variable is_word : N -> bool.
  (** The tokenizer's normalizer. *)
  Variable n : option (ns -> res ns).

  (** 125-172.  [GetPattern].  The content of an added token is never empty (278, 293), so
      the panic of 130 is not met in a vocabulary.  A normalizer's error is fatal (149-151);
      without a normalizer the content is taken as it is. *)
  Definition get_pattern (t : added_token) : res token_re :=
    if at_single t then
      match runes (at_content t) with
      | [] => Panic
      | c :: cs =>
          do m <- apply_normalizer n (new_ns (at_content t));
          let text := ns_norm m in
          Ok (TRe (at_lstrip t) (is_word c) text (is_word (last cs c)) (at_rstrip t))
      end
    else Ok (TRe (at_lstrip t) false (at_content t) false (at_rstrip t)).

  (** 329-360.  [refreshAddedTokens]: the patterns with their ids, of the tokens that are
      looked for in the normalized text ([norm]) or in the text as it is.  Every pattern
      compiles when the texts are valid UTF-8. *)
  Fixpoint token_patterns (ids : str -> option Z) (norm : bool) (ts : list added_token) : res (list (token_re * Z)) :=
    match ts with
    | [] => Ok []
    | t :: ts' =>
        match ids (at_content t) with
        | None => Fatal
        | Some id =>
            do r <- get_pattern t;
            do rest <- token_patterns ids norm ts';
            Ok (if Bool.eqb (at_norm t) norm then (r, id) :: rest else rest)
        end
    end.
End Pattern.

(** Go's regexp syntax: [\s] is [\t\n\f\r ], and [\b] is the edge of a run of [0-9A-Za-z_]. *)
Definition re_blank (b : N) : bool := existsb (N.eqb b) [9; 10; 12; 13; 32]%N.
Definition word_byte (b : N) : bool :=
  ((48 <=? b) && (b <=? 57) || (65 <=? b) && (b <=? 90) || (97 <=? b) && (b <=? 122) || (b =? 95))%N.
Definition word_opt (b : option N) : bool := match b with Some b => word_byte b | None => false end.

(** The match at the beginning of [s], without white space in front; [prev] is the byte before
    [s].  Number of bytes. *)
Definition match_core (r : token_re) (prev : option N) (s : str) : option nat :=
  if starts_with (tr_text r) s then
    let rest := skipn (length (tr_text r)) s in
    let before := match rev (tr_text r) with [] => prev | b :: _ => Some b end in
    if (negb (tr_bl r) || xorb (word_opt prev) (word_opt (hd_error s)))
       && (negb (tr_br r) || xorb (word_opt before) (word_opt (hd_error rest)))
    then Some (length (tr_text r) +
               match rest with b :: _ => if tr_right r && re_blank b then 1 else 0 | [] => 0 end)%nat
    else None
  else None.
(** The match that Go's regexp prefers: with the white space in front if possible. *)
Definition match_at (r : token_re) (prev : option N) (s : str) : option nat :=
  match s with
  | b :: s' =>
      match (if tr_left r && re_blank b then match_core r (Some b) s' else None) with
      | Some k => Some (S k)
      | None => match_core r prev s
      end
  | [] => None
  end.

(** FindAllStringIndex (397-398): the matches from left to right, each search beginning at the
    end of the match before.  [skip] bytes belong to a match already found.  Simplified: empty
    matches, which only a token whose normalized text is empty has, are left out. *)
Fixpoint find_re (r : token_re) (prev : option N) (s : str) (pos : Z) (skip : nat) : list (Z * Z) :=
  match s with
  | [] => []
  | b :: s' =>
      match skip with
      | S k => find_re r (Some b) s' (pos + 1) k
      | O => match match_at r prev s with
             | Some (S k) => (pos, pos + Z.of_nat (S k)) :: find_re r (Some b) s' (pos + 1) k
             | _ => find_re r (Some b) s' (pos + 1) 0
             end
      end
  end.

(** 358-359, 394-404.  The matching set of patterns: the matches of each of them.  That the
    regexp set is asked first which patterns match at all makes no difference. *)
Definition re_matching (l : list (token_re * Z)) : matching :=
  Mset (map snd l) (fun s => map (fun x => find_re (fst x) None s 0 0) l).
