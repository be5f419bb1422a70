(** Vocabulary for the statements about pre-tokenizers: everything in characters. *)
From Verif Require Import Base Utf8Model NormalizedModel NormalizedSpec PreTokenizedModel PreTokenizedSpec PreTokenizerModel.
Open Scope Z_scope.

(** Maximal groups of neighbours [x], [y] with [join x y]. *)
Fixpoint segments {A} (join : A -> A -> bool) (l : list A) : list (list A) :=
  match l with
  | [] => []
  | x :: l' =>
      match segments join l' with
      | (y :: g) :: gs => if join x y then (x :: y :: g) :: gs else [x] :: (y :: g) :: gs
      | gs => [x] :: gs
      end
  end.

(** The words between the separators: maximal runs of other characters. *)
Definition all_seg {A} (f : A -> bool) (seg : list A) : bool := forallb f seg.
Definition words_of (sep : N -> bool) (rs : list N) : list (list N) :=
  filter (all_seg (fun c => negb (sep c))) (segments (fun c d => Bool.eqb (sep c) (sep d)) rs).

(** Text cut at the delimiters in one of the documented ways: between two characters
    stays a cut unless both are ordinary or the behavior joins them. *)
Definition stay (b : behavior) (sep : N -> bool) (c d : N) : bool :=
  (negb (sep c) && negb (sep d)) || joins b (sep c) (sep d).
Definition cut_up (b : behavior) (sep : N -> bool) (rs : list N) : list (list N) :=
  match b with
  | Removed => words_of sep rs
  | _ => segments (stay b sep) rs
  end.

(** What each pre-tokenizer makes of one text. *)
Definition bert_pieces (u : unicode) (rs : list N) : list (list N) :=
  flat_map (cut_up Isolated (is_punct u)) (words_of re_space rs).
(** Runs of word characters and runs of other characters, white space removed. *)
Definition word_class (c : N) : nat := (if re_word c then 1 else if re_space c then 0 else 2)%nat.
Definition whitespace_pieces (rs : list N) : list (list N) :=
  filter (all_seg (fun c => negb (re_space c))) (segments (fun c d => Nat.eqb (word_class c) (word_class d)) rs).

(** A piece of the original text [orig]: its alignments are in order and its original
    text is the part of [orig] it claims. *)
Definition sits (orig : str) (n : ns) : Prop :=
  wf n /\ ordered (ns_al n) /\ valid_utf8 (ns_norm n) /\
  0 <= ns_shift n /\ ns_shift n + zlen (ns_orig n) <= zlen orig /\
  ns_orig n = part (ns_shift n) (ns_shift n + zlen (ns_orig n)) orig.
Definition all_sit (p : pretok) : Prop := Forall (fun sp => has_toks sp = false -> sits (pt_orig p) (sp_ns sp)) (pt_splits p).

(** Every piece without tokens is replaced by new ones with the texts [f] makes of its
    characters, the others stay. *)
Definition recut (f : list N -> list (list N)) (sp : split) (new : list split) : Prop :=
  if has_toks sp then new = [sp]
  else map sp_text new = map encode (f (runes (sp_text sp))) /\ Forall (fun x => has_toks x = false) new.
Definition repieced (f : list N -> list (list N)) (p p' : pretok) : Prop :=
  pt_orig p' = pt_orig p /\
  exists news, pt_splits p' = concat news /\ Forall2 (recut f) (pt_splits p) news.

(** The script each character counts as: one of script "Any" takes that of the character
    before it ([last], empty at the start). *)
Fixpoint carried (script : N -> str) (last : str) (rs : list N) : list (N * str) :=
  match rs with
  | [] => []
  | r :: rs' => let s := if str_eqb (script r) ANY then last else script r in (r, s) :: carried script s rs'
  end.
(** Runs of characters counting as the same script. *)
Definition script_runs (script : N -> str) (rs : list N) : list (list (N * str)) :=
  segments (fun x y => str_eqb (snd x) (snd y)) (carried script [] rs).
(** The pieces the code makes: a first run without a script is left out. *)
Definition script_pieces (script : N -> str) (rs : list N) : list (list N) :=
  map (map fst) (match script_runs script rs with
                 | ((_, []) :: _) :: gs => gs
                 | gs => gs
                 end).

(** The pieces each of the cutting pre-tokenizers is documented to make of a text, None for
    those that also rewrite text (Metaspace, ByteLevel) and for Split with other patterns
    than functions and characters, not inverted.  In a sequence each works on the pieces of the one
    before it. *)
Fixpoint documented (u : unicode) (t : pre_tokenizer) : option (list N -> list (list N)) :=
  match t with
  | PTBert => Some (bert_pieces u)
  | PTWhitespace => Some whitespace_pieces
  | PTWhitespaceSplit => Some (words_of is_white)
  | PTPunctuation b => Some (cut_up b (is_punct u))
  | PTDigits individual => Some (cut_up (if individual then Isolated else Contiguous) (un_number u))
  | PTDelimiter d => Some (words_of (fun c => c =? d)%N)
  | PTSplit (PatternModel.PFn f) b false => Some (cut_up b f)
  | PTSplit (PatternModel.PRune d) b false => Some (cut_up b (fun c => c =? d)%N)
  | PTSplit _ _ _ | PTMetaspace _ _ _ | PTByteLevel _ => None
  | PTScript => Some (script_pieces (fixed_script u))
  | PTSequence ts =>
      (fix go (ts : list pre_tokenizer) : option (list N -> list (list N)) :=
         match ts with
         | [] => Some (fun rs => [rs])
         | t :: ts' =>
             match documented u t, go ts' with
             | Some f, Some g => Some (fun rs => flat_map g (f rs))
             | _, _ => None
             end
         end) ts
  end.

(** The characters each of them removes. *)
Definition separator (u : unicode) (t : pre_tokenizer) (c : N) : bool :=
  match t with
  | PTBert | PTWhitespace => re_space c
  | PTWhitespaceSplit => is_white c
  | PTPunctuation Removed => is_punct u c
  | PTDelimiter d => (c =? d)%N
  | _ => false
  end.

(** The text with the prefix space, if the setting asks for one and the text does not
    start with one. *)
Definition spaced (prefix : bool) (s : str) : str :=
  match s with
  | [] => []
  | b :: _ => if prefix && negb (b =? 32)%N then 32%N :: s else s
  end.
