(** Specification side of C51. *)
From Verif Require Import Base Utf8Model SpmModel.
From Coq Require Import Sorted.
Open Scope Z_scope.

(** The 4 bytes of a 32-bit number, least significant first. *)
Definition bytes32 (n : N) : str :=
  [n mod 256; (n / 256) mod 256; (n / 65536) mod 256; (n / 16777216) mod 256]%N.

(** The format of a blob: the size of the trie in bytes, its units, the texts. *)
Definition blob (units : list N) (text : str) : str :=
  (bytes32 (4 * N.of_nat (length units)) ++ flat_map bytes32 units ++ text)%list.

Definition has_unit (arr : list N) (i u : N) : Prop := nth_error arr (N.to_nat i) = Some u.

(** The published layout of a unit, a 32-bit number (darts-clone): bits 0-7 and 31 are the label,
    bit 8 tells that a value is stored, bit 9 that the offset counts in 256s, bits 10-30 are the
    offset; a stored value is the number without bit 31. *)
Definition unit_leaf (u : N) : Prop := ((u / 256) mod 2 = 1)%N.
Definition unit_value (u : N) : N := (u mod 2147483648)%N.
Definition unit_label (u : N) : N := (u mod 256 + 2147483648 * (u / 2147483648))%N.
Definition unit_offset (u : N) : N := (u / 1024 * if ((u / 512) mod 2 =? 1) then 256 else 1)%N.

(** [path arr from p to leaf]: reading the bytes [p] from the node [from] one reaches the node
    [to]; [leaf] tells whether a value is stored there. *)
Inductive path (arr : list N) : N -> str -> N -> bool -> Prop :=
| path_one from c u : c <> 0%N -> has_unit arr (N.lxor from c) u -> u_label u = c ->
    path arr from [c] (N.lxor (N.lxor from c) (u_offset u)) (u_leaf u)
| path_more from c u p to leaf : c <> 0%N -> has_unit arr (N.lxor from c) u -> u_label u = c ->
    path arr (N.lxor (N.lxor from c) (u_offset u)) p to leaf -> path arr from (c :: p) to leaf.

(** The trie maps [p] to the value [v]. *)
Definition entry (arr : list N) (p : str) (v : Z) : Prop :=
  exists root to w, has_unit arr 0 root /\ path arr (u_offset root) p to true /\ has_unit arr to w /\ v = u_value w.

Definition prefix_of (p key : str) : Prop := exists rest, key = (p ++ rest)%list.
Definition shorter (a b : str) : Prop := (length a < length b)%nat.

(** A trie is well formed: it consists of blocks of 256 units, and the children of the root and
    of every unit that stands for a byte start inside it. *)
Definition well_formed (arr : list N) : Prop :=
  (exists k, length arr = (256 * k)%nat) /\ arr <> [] /\
  (forall u, has_unit arr 0 u -> (N.to_nat (u_offset u) < length arr)%nat) /\
  (forall i u, has_unit arr i u -> (u_label u < 256)%N -> (N.to_nat (N.lxor i (u_offset u)) < length arr)%nat).

(** All values lie inside the text. *)
Definition values_inside (arr : list N) (text : str) : Prop := forall p v, entry arr p v -> v <= zlen text.

Definition all_bytes (s : str) : Prop := Forall (fun c => (c < 256)%N) s.

(** What [NormalizeString] is meant to do with one character of a grapheme: replace it by its
    entry, if it has one. *)
Inductive char_rewritten (mn : N -> bool) (arr : list N) (text : str) (r : N) : str -> Prop :=
| cr_entry out : spm_transform arr text (encode_rune r) = Ok out -> normalize_mn mn out <> [] ->
    char_rewritten mn arr text r (normalize_mn mn out)
| cr_same out : spm_transform arr text (encode_rune r) = Ok out -> normalize_mn mn out = [] ->
    char_rewritten mn arr text r (encode_rune r).

(** And with one grapheme: replace it by its entry if it is shorter than six bytes and has one,
    otherwise rewrite its characters one by one. *)
Inductive rewritten (mn : N -> bool) (arr : list N) (text : str) (g : str) : str -> Prop :=
| rw_whole out : zlen g < 6 -> spm_transform arr text g = Ok out -> out <> [] -> rewritten mn arr text g out
| rw_chars outs : (zlen g < 6 -> spm_transform arr text g = Ok []) ->
    Forall2 (char_rewritten mn arr text) (runes (normalize_mn mn g)) outs -> rewritten mn arr text g (concat outs).

(** A grapheme that has no entry of its own. *)
Definition plain (arr : list N) (text g : str) : Prop := zlen g < 6 -> spm_transform arr text g = Ok [].

(** What the normalizer does with one grapheme: as above, but each character of it is looked up
    as the first bytes of the grapheme, as many as the character has. *)
Inductive from_start (mn : N -> bool) (arr : list N) (text : str) (g : str) (r : N) : str -> Prop :=
| fs_entry out : spm_transform arr text (firstn (length (encode_rune r)) g) = Ok out -> normalize_mn mn out <> [] ->
    from_start mn arr text g r (normalize_mn mn out)
| fs_same out : spm_transform arr text (firstn (length (encode_rune r)) g) = Ok out -> normalize_mn mn out = [] ->
    from_start mn arr text g r (encode_rune r).
Inductive normalizer_rewritten (mn : N -> bool) (arr : list N) (text : str) (g : str) : str -> Prop :=
| nr_whole out : zlen g < 6 -> spm_transform arr text g = Ok out -> out <> [] -> normalizer_rewritten mn arr text g out
| nr_chars outs : (zlen g < 6 -> spm_transform arr text g = Ok []) ->
    Forall2 (from_start mn arr text (normalize_mn mn g)) (runes (normalize_mn mn g)) outs ->
    normalizer_rewritten mn arr text g (concat outs).
