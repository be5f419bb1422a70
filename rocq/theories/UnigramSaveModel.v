(** Model of building and saving Unigram models: /repo/model/unigram/unigram.go:54-151 and 193-243. *)
From Coq Require Import String QArith.
From Verif Require Import Base Utf8Model UnigramModel ConfigModel.
Open Scope Z_scope.
Open Scope list_scope.

(** The settings of a UnigramBuilder, unigram.go:28-36 (without the cache, which Build does not use).
    The setters change the builder and return it. *)
Record ug_builder := UB { ub_vocab : list (str * Q); ub_unk : option Z; ub_bytes : bool; ub_fuse : bool }.
(** unigram.go:55-65. *)
Definition ub_new : ug_builder := UB [] None false true.
(** unigram.go:68-89: Vocab, UnkID, BytesFallback and FuseUnk. *)
Inductive ub_op := UVocab (v : list (str * Q)) | UUnk (i : Z) | UBytes (b : bool) | UFuse (b : bool).
Definition ub_set (c : ug_builder) (o : ub_op) : ug_builder :=
  match o with
  | UVocab v => UB v (ub_unk c) (ub_bytes c) (ub_fuse c)
  | UUnk i => UB (ub_vocab c) (Some i) (ub_bytes c) (ub_fuse c)
  | UBytes b => UB (ub_vocab c) (ub_unk c) b (ub_fuse c)
  | UFuse b => UB (ub_vocab c) (ub_unk c) (ub_bytes c) b
  end.
(** unigram.go:92-114. *)
Definition ub_build (c : ug_builder) : res (@unigram Q) := ug_build (ub_vocab c) (ub_unk c) (ub_bytes c) (ub_fuse c).

(** encoding/json writes a string as UTF-8; bytes that are not UTF-8 are written as U+FFFD. *)
Definition json_text (s : str) : json := JStr (encode (runes s)).
(** unigram.go:213-216 and 218-223: an entry of the vocabulary.  Simplification: scores are rational
    numbers; for NaN and infinities, which Encode refuses, nothing is said. *)
Definition saved_entry (p : str * Q) : json := JObj [(key "token", json_text (fst p)); (key "score", JNum (snd p))].
(** unigram.go:226-235: what Encode writes to the file; members of a map are written in the order of
    their keys.  The setting fuseUnk is not among them. *)
Definition saved_file (u : @unigram Q) : conf :=
  [(key "byte_fallback", JBool (ug_bytes u));
   (key "type", JStr (key "Unigram"));
   (key "unk_id", match ug_unk u with Some i => JNum (i # 1) | None => JNull end);
   (key "vocab", JArr (map saved_entry (ug_vocab u)))].
(** unigram.go:194-208: the name of the file in the directory. *)
Definition saved_name (prefix : option str) : str := (match prefix with Some p => p | None => key "tokenizer" end ++ key "-vocab.json")%list.
