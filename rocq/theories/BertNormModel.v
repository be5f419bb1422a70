(** Model of the BERT normalizer (normalizer/bert.go) and of the default and Unicode
    normalizers (normalizer/default.go, normalizer/unicode.go). *)
From Verif Require Import Base Utf8Model NormalizedModel PreTokenizerModel.
Open Scope Z_scope.

(** bert.go:35-45.  isControl; [cc] is membership in the Unicode categories Cc and Cf. *)
Definition is_control (cc : N -> bool) (c : N) : bool :=
  if ((c =? 9) || (c =? 10) || (c =? 13))%N then false else cc c.

(** unicode.Is of the Go standard library for a table of at most 18 ranges with stride 1:
    the 16-bit ranges are searched up to the end of the last one, then the 32-bit ranges
    from the start of the first one; the search stops at the first range that starts
    behind the character (the library requires sorted tables). *)
Fixpoint in_ranges (l : list (N * N)) (c : N) : bool :=
  match l with
  | [] => false
  | (lo, hi) :: l' => if (c <? lo)%N then false else if (c <=? hi)%N then true else in_ranges l' c
  end.
Definition in_table (r16 r32 : list (N * N)) (c : N) : bool :=
  if negb (length r16 =? 0)%nat && (c <=? snd (last r16 (0, 0)%N))%N then in_ranges r16 c
  else if negb (length r32 =? 0)%nat && (fst (hd (0, 0)%N r32) <=? c)%N then in_ranges r32 c
  else false.

(** bert.go:63-103.  The table [cjk] as it stands in the code, and isChinese. *)
Definition cjk16 : list (N * N) := [(0x4e00, 0x9fff); (0x3400, 0x4dbf); (0xf900, 0xfaff)]%N.
Definition cjk32 : list (N * N) :=
  [(0x20000, 0x2a6df); (0x2a700, 0x2b73f); (0x2b740, 0x2b81f); (0x2b820, 0x2ceaf); (0x2f800, 0x2fa1f)]%N.
Definition is_chinese (c : N) : bool := in_table cjk16 cjk32 c.

(** bert.go:110-152.  doCleanText.  The Go loop runs over the reversed characters;
    [removed] counts the dropped characters right after the current one. *)
Definition clean_step (cc : N -> bool) (r : N) (st : list (str * Z) * Z) : list (str * Z) * Z :=
  let '(items, removed) := st in
  if ((r =? 0) || (r =? 0xfffd))%N || is_control cc r then (items, removed + 1)
  else if 0 <? removed then ((encode_rune (if is_white r then 32%N else r), - removed) :: items, 0)
  else ((encode_rune r, 0) :: items, removed).
Definition clean_items (cc : N -> bool) (rs : list N) : list (str * Z) * Z := fold_right (clean_step cc) ([], 0) rs.
Definition clean_text (cc : N -> bool) (n : ns) : res ns :=
  let '(items, removed) := clean_items cc (runes (ns_norm n)) in transform n items removed.

(** bert.go:154-181.  doHandleChineseChars. *)
Definition chinese_items (rs : list N) : list (str * Z) :=
  flat_map (fun r => if is_chinese r then [([32%N], 1); (encode_rune r, 0); ([32%N], 1)] else [(encode_rune r, 0)]) rs.
Definition handle_chinese (n : ns) : res ns := transform n (chinese_items (runes (ns_norm n))) 0.

(** bert.go:9-21.  BertNormalizer. *)
Record bert_normalizer := BN { bn_clean : bool; bn_chinese : bool; bn_accents : bool; bn_lower : bool }.

(** bert.go:183-210.  Normalize; [lower] is strings.ToLower and [mn] the category Mn. *)
Definition bert_normalize (cc mn : N -> bool) (lower : str -> str) (b : bert_normalizer) (n : ns) : res ns :=
  do n1 <- (if bn_clean b then clean_text cc n else Ok n);
  do n2 <- (if bn_chinese b then handle_chinese n1 else Ok n1);
  let n3 := if bn_lower b then case_map lower n2 else n2 in
  if bn_accents b then remove_accents mn n3 else Ok n3.

(** default.go:45-58.  DefaultNormalizer.Normalize: lower case, then strip both ends
    ([sp] is unicode.IsSpace). *)
Definition default_normalize (sp : N -> bool) (lower : str -> str) (lowercase strip : bool) (n : ns) : res ns :=
  let n1 := if lowercase then case_map lower n else n in
  if strip then lrstrip sp true true n1 else Ok n1.
