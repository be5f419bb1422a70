(** Model of the WordPiece and WordLevel models: /repo/model/wordpiece/wordpiece.go
    and /repo/model/wordlevel/wordlevel.go. *)
From Verif Require Import Base Utf8Model BpeModel BpeSaveModel.
Open Scope Z_scope.

(** * WordPiece *)

(** wordpiece.go:117-123.  maxInputCharsPerWord is a Go int. *)
Record wordpiece := WP {
  wp_vocab : vocab;
  wp_vocab_r : vocab_r;
  wp_unk : str;
  wp_prefix : str;
  wp_max : Z;
}.

(** wordpiece.go:80-110.  [Build]; [order] is the order in which Go happens to iterate
    over the vocabulary. *)
Definition wp_build (v order : vocab) (unk prefix : str) (max : Z) : wordpiece :=
  WP v (build_vocab_r order) unk prefix max.

(** wordpiece.go:263-275 and 315-326.  The single unknown token. *)
Definition wp_unknown (wp : wordpiece) (n : Z) : res (list token) :=
  match vget (wp_unk wp) (wp_vocab wp) with
  | Some id => Ok [Tok id (wp_unk wp) (0, n)]
  | None => Err
  end.

(** wordpiece.go:289-292.  The string looked up for chars[start:end]. *)
Definition wp_key (wp : wordpiece) (chars : list N) (start len : nat) : str :=
  let sub := encode (firstn len (skipn start chars)) in
  if (0 <? start)%nat then wp_prefix wp ++ sub else sub.

(** wordpiece.go:288-304.  The inner loop: [len] is end - start, counting down to 1. *)
Fixpoint wp_longest (wp : wordpiece) (chars : list N) (start len : nat) : option (Z * str * nat) :=
  match len with
  | O => None
  | S len' =>
      match vget (wp_key wp chars start len) (wp_vocab wp) with
      | Some id => Some (id, wp_key wp chars start len, len)
      | None => wp_longest wp chars start len'
      end
  end.

(** wordpiece.go:284-312.  The outer loop; [None] is isBad.  [fuel] at least the number
    of remaining characters suffices. *)
Fixpoint wp_loop (wp : wordpiece) (chars : list N) (fuel start : nat) (acc : list token)
  : res (option (list token)) :=
  if (start <? length chars)%nat then
    match fuel with
    | O => NoFuel
    | S fuel' =>
        match wp_longest wp chars start (length chars - start) with
        | Some (id, v, len) =>
            wp_loop wp chars fuel' (start + len)
              (acc ++ [Tok id v (Z.of_nat start, Z.of_nat (start + len))])
        | None => Ok None
        end
    end
  else Ok (Some acc).

(** wordpiece.go:254-332.  [Tokenize]. *)
Definition wp_tokenize (wp : wordpiece) (s : str) : res (list token) :=
  let chars := runes s in
  if wp_max wp <? zlen chars then wp_unknown wp (zlen chars)
  else
    do r <- wp_loop wp chars (length chars) 0 [];
    match r with
    | None => wp_unknown wp (zlen chars)
    | Some toks => Ok toks
    end.

(** wordpiece.go:334-342. *)
Definition wp_token_to_id (wp : wordpiece) (t : str) : option Z := vget t (wp_vocab wp).
Definition wp_id_to_token (wp : wordpiece) (i : Z) : option str := vrget i (wp_vocab_r wp).

(** * WordLevel *)

(** wordlevel.go:13-16.  The builder's configuration; the map is nil after Vocab(nil). *)
Record wl_config := WLC { wlc_vocab : option vocab; wlc_unk : str }.

(** "<unk>" *)
Definition default_unk : str := [60; 117; 110; 107; 62]%N.

(** wordlevel.go:24-39. *)
Definition wl_new_builder : wl_config := WLC (Some [(default_unk, 0)]) default_unk.

(** wordlevel.go:42-50.  The two setters.  Assigning to a nil map panics; len is read
    before the assignment. *)
Inductive wl_op := WLVocab (v : option vocab) | WLUnk (u : str).
Definition wl_step (c : wl_config) (o : wl_op) : res wl_config :=
  match o with
  | WLVocab v => Ok (WLC v (wlc_unk c))
  | WLUnk u =>
      match wlc_vocab c with
      | Some v => Ok (WLC (Some (aset str_eqb u (zlen v) v)) u)
      | None => Panic
      end
  end.

(** wordlevel.go:69-73. *)
Record wordlevel := WL { wl_vocab : vocab; wl_vocab_r : vocab_r; wl_unk : str }.

(** wordlevel.go:53-64.  [Build] (also the end of [New] at 248-263 and of
    [NewWorldLevelFromFile] at 105-109).  Simplification: the built model has a copy of
    the map, the source shares it with the builder. *)
Definition wl_build (c : wl_config) (order : vocab) : wordlevel :=
  WL (match wlc_vocab c with Some v => v | None => [] end) (build_vocab_r order) (wlc_unk c).

(** wordlevel.go:142-167.  [Tokenize]. *)
Definition wl_tokenize (wl : wordlevel) (s : str) : res (list token) :=
  match vget s (wl_vocab wl) with
  | Some id => Ok [Tok id s (0, zlen s)]
  | None =>
      match vget (wl_unk wl) (wl_vocab wl) with
      | Some id => Ok [Tok id s (0, zlen s)]
      | None => Err
      end
  end.

(** wordlevel.go:170-179. *)
Definition wl_token_to_id (wl : wordlevel) (t : str) : option Z := vget t (wl_vocab wl).
Definition wl_id_to_token (wl : wordlevel) (i : Z) : option str := vrget i (wl_vocab_r wl).

(** * Vocabulary files *)

(** wordpiece.go:378-395 and wordlevel.go:216-233.  The file content; [sorted] is the
    vocabulary in the order produced by sort.Slice. *)
Definition save_vocab (sorted : vocab) : str := concat (map (fun e => fst e ++ [NL]) sorted).

(** wordpiece.go:158-165, 202-207 and wordlevel.go:94-99.  One line of the file. *)
Definition vocab_line (st : vocab * Z) (line : str) : vocab * Z :=
  (aset str_eqb line (snd st) (fst st), snd st + 1).

(** wordpiece.go:196-211 and wordlevel.go:88-103 ([ReadFiles], wordpiece.go:142-172, ends
    the process where these return an error). *)
Definition load_vocab (file : str) : res vocab :=
  do lines <- scan_lines file;
  Ok (fst (fold_left vocab_line lines ([], 0))).
