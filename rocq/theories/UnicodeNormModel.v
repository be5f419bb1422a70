(** Model of /repo/normalizer/unicode.go and of /repo/normalizer/sequence.go. *)
From Verif Require Import Base Utf8Model PatternModel NormalizedModel.
Open Scope Z_scope.

(** norm.Form of golang.org/x/text/unicode/norm: the four forms and any other number. *)
Inductive form := NFC | NFD | NFKC | NFKD | OtherForm.

(** The two functions of that library: Form.IsNormalString and the segments that an Iter
    over the text returns. *)
Record norm_lib := NormLib { is_normal : form -> str -> bool; iter : form -> str -> list (list N) }.

(** unicode.go:20-33, and 41-43, 51-53, 61-63, 71-73 for the four named normalizers.  [None] is
    the nil that NFKD returns. *)
Definition un_normalize (L : norm_lib) (f : form) (n : ns) : res (option ns) :=
  match f with
  | NFC => do m <- nfc (is_normal L NFC) (iter L NFD) n; Ok (Some m)
  | NFD => do m <- nfd (iter L NFD) n; Ok (Some m)
  | NFKC => do m <- nfkc (is_normal L NFKC) (iter L NFKD) n; Ok (Some m)
  | NFKD => nfkd (is_normal L NFKD) (iter L NFKD) n
  | OtherForm => Ok (Some n)
  end.

(** sequence.go:16-27.  Every normalizer reads a field of the string it is given, so nil
    panics. *)
Definition norm_sequence (fs : list (ns -> res (option ns))) (n : ns) : res (option ns) :=
  foldR (fun o f => match o with Some m => f m | None => Panic end) fs (Some n).

(** The normalizer as added-vocabulary.go:514-522 uses it: the text of the result is read. *)
Definition used (f : ns -> res (option ns)) (n : ns) : res ns :=
  do o <- f n; match o with Some m => Ok m | None => Panic end.
