(** Model of the pre-tokenizers in /repo/pretokenizer/. *)
From Verif Require Import Base Utf8Model PatternModel NormalizedModel BpeModel BpeSaveModel PreTokenizedModel DecoderModel.
Open Scope Z_scope.

(** The Unicode tables the code consults: categories P, N and L of package unicode, and
    the name of the script of a character ("" if none; scripts are disjoint, so the
    iteration order in unicode-script.go:12-20 does not matter). *)
Record unicode := Uni {
  un_punct : N -> bool;
  un_number : N -> bool;
  un_letter : N -> bool;
  un_script : N -> str
}.

(** normalizer/bert.go:47-61 and pretokenizer/punctuation.go:11-28. *)
Definition is_punct (u : unicode) (c : N) : bool :=
  (((33 <=? c) && (c <=? 47)) || ((58 <=? c) && (c <=? 64)) || ((91 <=? c) && (c <=? 96)) ||
   ((123 <=? c) && (c <=? 126)))%N || un_punct u c.

(** normalizer/bert.go:24-32. *)
Definition is_white (c : N) : bool := ((c =? 32) || (c =? 9) || (c =? 10) || (c =? 13))%N.

(** ** The fixed regexps, as FindAllStringIndex applies them *)

(** The classes \s and \w of package regexp (ASCII only). *)
Definition re_space (c : N) : bool := ((c =? 9) || (c =? 10) || (c =? 12) || (c =? 13) || (c =? 32))%N.
Definition re_word (c : N) : bool :=
  (((48 <=? c) && (c <=? 57)) || ((65 <=? c) && (c <=? 90)) || (c =? 95) || ((97 <=? c) && (c <=? 122)))%N.

(** Matches of A+|B+|... for disjoint classes: maximal runs of characters of the same class,
    [cls] being 0 outside all of them.  The run in progress is of class [cur] and starts
    at [start]. *)
Fixpoint class_runs (cls : N -> nat) (l : list (N * nat)) (pos start : Z) (cur : nat) : list (Z * Z) :=
  match l with
  | [] => if (cur =? 0)%nat then [] else [(start, pos)]
  | (r, w) :: l' =>
      if (cls r =? cur)%nat then class_runs cls l' (pos + Z.of_nat w) start cur
      else (if (cur =? 0)%nat then [] else [(start, pos)]) ++ class_runs cls l' (pos + Z.of_nat w) pos (cls r)
  end.
Definition find_runs (cls : N -> nat) (s : str) : list (Z * Z) := class_runs cls (runes_w s) 0 0 0.

(** `\s+` (bert.go:78) and `\w+|[^\w\s]+` (whitespace.go:24). *)
Definition find_spaces : str -> list (Z * Z) := find_runs (fun c => if re_space c then 1 else 0)%nat.
Definition find_words : str -> list (Z * Z) :=
  find_runs (fun c => if re_word c then 1 else if re_space c then 0 else 2)%nat.

(** A class without +: every character on its own, as `\s` (metaspace.go:79).  The
    replacement of Metaspace is used as a regexp too (101): this is right for a single
    character that is no metacharacter. *)
Fixpoint char_finds (f : N -> bool) (l : list (N * nat)) (pos : Z) : list (Z * Z) :=
  match l with
  | [] => []
  | (r, w) :: l' =>
      (if f r then [(pos, pos + Z.of_nat w)] else []) ++ char_finds f l' (pos + Z.of_nat w)
  end.
Definition find_chars (f : N -> bool) (s : str) : list (Z * Z) := char_finds f (runes_w s) 0.

(** bytelevel.go:18: 's|'t|'re|'ve|'m|'ll|'d| ?\p{L}+| ?\p{N}+| ?[^\s\p{L}\p{N}]+
    [lead f rs]: the number of characters of the longest prefix satisfying [f]. *)
Fixpoint lead (f : N -> bool) (rs : list N) : nat :=
  match rs with
  | [] => O
  | r :: rs' => if f r then S (lead f rs') else O
  end.
(** ` ?C+`: 0 if it does not match here. *)
Definition opt_space (f : N -> bool) (rs : list N) : nat :=
  match rs with
  | 32%N :: rs' => match lead f rs' with O => lead f rs | k => S k end
  | _ => lead f rs
  end.
Definition word_ends : list (list N) :=
  [[115]; [116]; [114; 101]; [118; 101]; [109]; [108; 108]; [100]]%N.   (* s t re ve m ll d *)
Definition contraction (rs : list N) : nat :=
  match rs with
  | 39%N :: rs' =>
      match find (fun e => starts_with e rs') word_ends with Some e => S (length e) | None => O end
  | _ => O
  end.
(** The number of characters matched here: the first alternative that matches. *)
Definition gpt2_here (u : unicode) (rs : list N) : nat :=
  match contraction rs with
  | O => match opt_space (un_letter u) rs with
         | O => match opt_space (un_number u) rs with
                | O => opt_space (fun c => negb (re_space c) && negb (un_letter u c) && negb (un_number u c)) rs
                | k => k
                end
         | k => k
         end
  | k => k
  end.
(** The matches from position [pos] on; [skip] characters belong to the match in progress. *)
Fixpoint gpt2_from (u : unicode) (l : list (N * nat)) (pos : Z) (skip : nat) : list (Z * Z) :=
  match l with
  | [] => []
  | (r, w) :: l' =>
      match skip with
      | S k => gpt2_from u l' (pos + Z.of_nat w) k
      | O =>
          match gpt2_here u (map fst l) with
          | O => gpt2_from u l' (pos + Z.of_nat w) O
          | S k =>
              (pos, pos + fold_right (fun p n => Z.of_nat (snd p) + n) 0 (firstn (S k) l))
                :: gpt2_from u l' (pos + Z.of_nat w) k
          end
      end
  end.
Definition find_gpt2 (u : unicode) (s : str) : list (Z * Z) := gpt2_from u (runes_w s) 0 O.

(** ** Split functions *)

(** The common end of all split functions (bert.go:86-93 and the same loops elsewhere). *)
Definition untokenized (ps : list ns) : list split := map (fun n => Spl n None) ps.
Definition split_by (p : pattern) (b : behavior) (i : nat) (n : ns) : res (list split) :=
  do ps <- ns_split n p b; Ok (untokenized ps).

(** bert.go:75-97. *)
Definition bert_split (u : unicode) (i : nat) (n : ns) : res (list split) :=
  do subs <- ns_split n (PRegexp find_spaces) Removed;
  do pss <- mapR (fun m => ns_split m (PFn (is_punct u)) Isolated) subs;
  Ok (untokenized (concat pss)).

(** unicode-script.go:32-46. *)
Definition HAN : str := [72; 97; 110]%N.
Definition ANY : str := [65; 110; 121]%N.
Definition HIRAGANA : str := [72; 105; 114; 97; 103; 97; 110; 97]%N.
Definition KATAKANA : str := [75; 97; 116; 97; 107; 97; 110; 97]%N.
Definition fixed_script (u : unicode) (c : N) : str :=
  if (c =? 12540)%N then HAN
  else if (c =? 32)%N then ANY
  else if str_eqb (un_script u c) HIRAGANA || str_eqb (un_script u c) KATAKANA then HAN
  else un_script u c.

(** unicode-script.go:54-74.  The positions where a script starts. *)
Fixpoint script_starts (script : N -> str) (rs : list N) (last : str) (offset : Z) : list Z :=
  match rs with
  | [] => []
  | c :: rs' =>
      let s := script c in
      let here := negb (str_eqb s ANY) && negb (str_eqb last ANY) && negb (str_eqb last s) in
      let last' := if str_eqb s ANY then last else s in
      (if here then [offset] else []) ++ script_starts script rs' last' (offset + zlen (encode_rune c))
  end.

(** unicode-script.go:80-94.  One slice per pair of neighbours; a nil slice is dereferenced. *)
Fixpoint windows (n : ns) (l : list Z) : res (list ns) :=
  match l with
  | a :: ((b :: _) as l') =>
      do m <- ns_slice n (Rng a b OnNormalized);
      match m with
      | None => Panic
      | Some m => do rest <- windows n l'; Ok (m :: rest)
      end
  | _ => Ok []
  end.
Definition script_split (u : unicode) (i : nat) (n : ns) : res (list split) :=
  do ps <- windows n (script_starts (fixed_script u) (runes (ns_norm n)) [] 0 ++ [zlen (ns_norm n)]);
  Ok (untokenized ps).

(** metaspace.go:11-21. *)
Inductive prepend_scheme := Never | First | Always.

(** metaspace.go:75-117; [rep] is Replacement and StrRep, [find] the regexp made from it
    (101). *)
Definition meta_split (rep : str) (find : str -> list (Z * Z)) (scheme : prepend_scheme) (i : nat) (n : ns) : res (list split) :=
  do n1 <- ns_replace (PRegexp (find_chars re_space)) rep n;
  let add := match scheme with
             | Always => negb (starts_with rep (ns_norm n1))
             | First => (i =? 0)%nat && negb (starts_with rep (ns_norm n1))
             | Never => false
             end in
  do n2 <- (if add then ns_prepend rep n1 else Ok n1);
  split_by (PRegexp find) MergedWithNext i n2.

(** bytelevel.go:184-201. *)
Definition byte_split (u : unicode) (prefix : bool) (i : nat) (n : ns) : res (list split) :=
  do n1 <- (if prefix && negb (starts_with [SP] (ns_norm n)) then ns_prepend [SP] n else Ok n);
  split_by (PRegexp (find_gpt2 u)) Isolated i n1.

(** bytelevel.go:203-219. *)
Definition byte_items (rs : list N) : list (str * Z) :=
  flat_map (fun r => match encode_rune r with
                     | [] => []
                     | b :: bs => (byte_char b, 0) :: map (fun c => (byte_char c, 1)) bs
                     end) rs.
Definition byte_normalize (n : ns) : res ns := transform n (byte_items (runes (ns_norm n))) 0.

(** ** All pre-tokenizers *)

Inductive pre_tokenizer :=
| PTBert                                        (* bert.go *)
| PTWhitespace                                  (* whitespace.go:22-40 *)
| PTWhitespaceSplit                             (* whitespace.go:52-68 *)
| PTPunctuation (b : behavior)                  (* punctuation.go:59-75 *)
| PTDigits (individual : bool)                  (* digits.go *)
| PTDelimiter (d : N)                           (* delimiter.go *)
| PTSplit (p : pattern) (b : behavior) (inverted : bool)   (* split.go *)
| PTScript                                      (* unicode-script.go *)
| PTMetaspace (rep : str) (find : str -> list (Z * Z)) (scheme : prepend_scheme)   (* metaspace.go *)
| PTByteLevel (prefix : bool)                   (* bytelevel.go:182-222 *)
| PTSequence (ts : list pre_tokenizer).         (* sequence.go *)

Fixpoint pre_tokenize (u : unicode) (t : pre_tokenizer) (p : pretok) : res pretok :=
  match t with
  | PTBert => pt_split (bert_split u) p
  | PTWhitespace => pt_split (split_by (PInvert (PRegexp find_words)) Removed) p
  | PTWhitespaceSplit => pt_split (split_by (PFn is_white) Removed) p
  | PTPunctuation b => pt_split (split_by (PFn (is_punct u)) b) p
  | PTDigits individual => pt_split (split_by (PFn (un_number u)) (if individual then Isolated else Contiguous)) p
  | PTDelimiter d => pt_split (split_by (PRune d) Removed) p
  | PTSplit q b inverted => pt_split (split_by (if inverted then PInvert q else q) b) p
  | PTScript => pt_split (script_split u) p
  | PTMetaspace rep find scheme => pt_split (meta_split rep find scheme) p
  | PTByteLevel prefix => do p1 <- pt_split (byte_split u prefix) p; pt_normalize byte_normalize p1
  | PTSequence ts =>
      (fix go (ts : list pre_tokenizer) (p : pretok) : res pretok :=
         match ts with
         | [] => Ok p
         | t :: ts' => do p' <- pre_tokenize u t p; go ts' p'
         end) ts p
  end.
