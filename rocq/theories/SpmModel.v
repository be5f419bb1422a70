(** Model of the precompiled character map, /repo/spm/spm-precompiled.go, and of the normalizer
    built on it, /repo/normalizer/precompiled.go. *)
From Verif Require Import Base Utf8Model NormalizedModel DecoderModel.
Open Scope Z_scope.

(** ** Units of the double array, spm-precompiled.go:41-82.  A unit is the 32-bit number. *)
Definition u_leaf (u : N) : bool := N.testbit u 8.
Definition u_value (u : N) : Z := Z.of_N (N.land u 0x7FFFFFFF).
Definition u_label (u : N) : N := N.land u 0x800000FF.
Definition u_offset (u : N) : N := N.shiftl (N.shiftr u 10) (N.shiftr (N.land u 512) 6).

Definition unit_at (arr : list N) (i : N) : res N := zindex arr (Z.of_N i).

(** The loop of CommonPrefixSearch, spm-precompiled.go:95-111. *)
Fixpoint search_from (arr : list N) (pos : N) (key : str) : res (list Z) :=
  match key with
  | [] => Ok []
  | c :: key' =>
      if (c =? 0)%N then Ok []
      else
        let p := N.lxor pos c in
        do u <- unit_at arr p;
        if negb (u_label u =? c)%N then Ok []
        else
          let p' := N.lxor p (u_offset u) in
          if u_leaf u then
            do v <- unit_at arr p';
            do rest <- search_from arr p' key';
            Ok (u_value v :: rest)
          else search_from arr p' key'
  end.

(** spm-precompiled.go:89-114. *)
Definition common_prefix_search (arr : list N) (key : str) : res (list Z) :=
  do u <- unit_at arr 0; search_from arr (u_offset u) key.

(** ** Parsing, spm-precompiled.go:116-132 *)
Definition le32 (a b c d : N) : N := (a + 256 * b + 65536 * c + 16777216 * d)%N.
Fixpoint read_units (n : N) (rest : str) {struct rest} : res (str * list N) :=
  if (n =? 0)%N then Ok (rest, [])
  else match rest with
       | a :: b :: c :: d :: rest' =>
           do r <- read_units (n - 1) rest'; Ok (fst r, le32 a b c d :: snd r)
       | _ => Panic
       end.
Definition parse (data : str) : res (str * list N) :=
  match data with
  | a :: b :: c :: d :: rest => read_units (le32 a b c d / 4) rest
  | _ => Panic
  end.

(** ** Rewriting *)
(** Up to the first NUL. *)
Fixpoint until_nul (s : str) : str :=
  match s with [] => [] | c :: s' => if (c =? 0)%N then [] else c :: until_nul s' end.

(** Transform, spm-precompiled.go:147-165: the first (shortest) match is used. *)
Definition spm_transform (arr : list N) (text : str) (chunk : str) : res str :=
  do rs <- common_prefix_search arr chunk;
  match rs with
  | [] => Ok []
  | i :: _ => if zlen text <? i then Panic else Ok (until_nul (skipn (Z.to_nat i) text))
  end.

(** %U, at least four hexadecimal digits. *)
Definition hex_digit (d : N) : N := if (d <? 10)%N then (48 + d)%N else (55 + d)%N.
Fixpoint hex_of (fuel : nat) (n : N) : str :=
  match fuel with
  | O => []
  | S f => (if (n / 16 =? 0)%N then [] else hex_of f (n / 16)) ++ [hex_digit (n mod 16)]
  end%list.
Definition percent_U (r : N) : str :=
  let h := hex_of 8 r in ([85; 43]%N ++ repeat 48%N (4 - length h) ++ h)%list.

Section Normalize.
  (** [mn]: the Unicode category Mn; [graphemes]: the segmentation of uniseg. *)
  Context (mn : N -> bool) (graphemes : str -> list str) (arr : list N) (text : str).

  (** spm-precompiled.go:171-184. *)
  Definition normalize_mn (s : str) : str :=
    concat (map (fun r => if mn r then percent_U r else encode_rune r) (runes s)).

  (** spm-precompiled.go:214-229: one character of a grapheme. *)
  Definition rewrite_rune (r : N) : res str :=
    do n <- spm_transform arr text (encode_rune r);
    match normalize_mn n with [] => Ok (encode_rune r) | m => Ok m end.

  (** spm-precompiled.go:212-229. *)
  Definition rewrite_chars (g : str) : res str :=
    do l <- mapR rewrite_rune (runes (normalize_mn g)); Ok (concat l).

  (** spm-precompiled.go:203-210: the entry of a whole grapheme shorter than six bytes. *)
  Definition short_entry (g : str) : res str := if zlen g <? 6 then spm_transform arr text g else Ok [].

  (** NormalizeString, spm-precompiled.go:186-234: returns at the first grapheme with an entry. *)
  Fixpoint normalize_from (gs : list str) (acc : str) : res str :=
    match gs with
    | [] => Ok acc
    | g :: gs' =>
        do n <- short_entry g;
        match n with
        | _ :: _ => Ok (acc ++ n)%list
        | [] => do r <- rewrite_chars g; normalize_from gs' (acc ++ r)%list
        end
    end.
  Definition normalize_string (s : str) : res str := normalize_from (graphemes s) [].

  (** ** The normalizer, normalizer/precompiled.go *)

  (** replace, precompiled.go:11-41.  (The loop of 31-33 ends at index 0, so that every entry
      collected so far is marked as inserted.)  [explode] is strings.Split with an empty separator. *)
  Definition replace_items (items : list (str * Z)) (old new : str) : res (list (str * Z)) :=
    let diff := zlen (explode new) - zlen (explode old) in
    let items' := (items ++ map (fun c => (c, 0)) (explode new))%list in
    if 0 <? diff then Ok (map (fun e => (fst e, 1)) items')
    else if diff <? 0 then
      match rev items' with
      | [] => Panic
      | (c, k) :: r => Ok (rev r ++ [(c, k + diff)])%list
      end
    else Ok items'.

  (** precompiled.go:77-94.  The index of the part is never advanced (93). *)
  Fixpoint char_items (g : str) (rs : list N) (st : list (str * Z) * bool) : res (list (str * Z) * bool) :=
    match rs with
    | [] => Ok st
    | r :: rs' =>
        do part <- zslice g 0 (zlen (encode_rune r));
        do n <- spm_transform arr text part;
        match normalize_mn n with
        | [] => char_items g rs' ((fst st ++ [(encode_rune r, 0)])%list, snd st)
        | m => do items <- replace_items (fst st) part m; char_items g rs' (items, true)
        end
    end.

  (** precompiled.go:58-95. *)
  Fixpoint grapheme_items (gs : list str) (st : list (str * Z) * bool) : res (list (str * Z) * bool) :=
    match gs with
    | [] => Ok st
    | g :: gs' =>
        do n <- short_entry g;
        match n with
        | _ :: _ => do items <- replace_items (fst st) g n; grapheme_items gs' (items, true)
        | [] => let g' := normalize_mn g in do st' <- char_items g' (runes g') st; grapheme_items gs' st'
        end
    end.

  (** precompiled.go:48-103.  One empty entry for every byte of the text comes first (51-53). *)
  Definition precompiled_normalize (n : ns) : res ns :=
    let start := map (fun _ : N => (@nil N, 0)) (ns_norm n) in
    do st <- grapheme_items (graphemes (ns_norm n)) (start, false);
    if snd st then transform n (fst st) 0 else Ok n.
End Normalize.
