(** Model of the constructor of encodings from tokens and of the second merge function in
    /repo/encoding.go. *)
From Verif Require Import Base EncodingModel BpeModel.
Open Scope Z_scope.

(** encoding.go:105-134, NewEncodingFromTokens.  The argument [typeId] is never read; the words are
    nil, which is the empty list here; SequenceRanges is a new map. *)
Definition from_tokens (l : list token) (typeId : Z) : Encoding :=
  let n := length l in
  mkEnc (map t_id l) (repeat 0 n) (map t_value l) (map t_off l) (repeat 0 n) (repeat 1 n) [] [] (Some []).

(** encoding.go:252-256, TakeOverflowing: the parts and the encoding afterwards. *)
Definition take_overflowing (e : Encoding) : list Encoding * Encoding := (overflowing e, set_overflowing e []).

(** encoding.go:514-525: the ranges of the second encoding, moved and put behind those of the same
    sequence in the first, in a new map.  The Go loop visits the second map in some order; the keys of
    a map are distinct, so the order does not matter.  The spare capacity that [append] may write to
    is not modelled. *)
Definition joined_ranges (originalLen : Z) (mine theirs : list (Z * list Z)) : res (list (Z * list Z)) :=
  foldR (fun acc kr =>
    let '(k, r) := kr in
    do r0 <- zindex r 0;
    do rl <- zindex r (zlen r - 1);
    do nr <- new_range (originalLen + r0) (originalLen + rl + 1);
    Ok (aset Z.eqb k (match aget Z.eqb k mine with Some old => old | None => [] end ++ nr) acc)) theirs [].

(** encoding.go:499-551, mergeEncoding.  [log.Fatalf] is [Fatal].  [offsets] is [en1.Offsets] itself,
    to which the offsets of [en2] are appended; the backing array is not modelled. *)
Definition merge_encoding (en1 en2 : Encoding) (growing : bool) : res Encoding :=
  match overflowing en1, overflowing en2 with
  | [], [] =>
      let mine := match seq_ranges en1 with Some m => m | None => [] end in
      do rs <- match seq_ranges en2 with
               | Some ((_ :: _) as theirs) => do m <- joined_ranges (enc_len en1) mine theirs; Ok (Some m)
               | _ => Ok (seq_ranges en1)
               end;
      Ok (mkEnc (ids en1 ++ ids en2) (type_ids en1 ++ type_ids en2) (tokens en1 ++ tokens en2)
                (offsets en1 ++ shift_offsets (starting_offset growing (offsets en1)) (offsets en2))
                (special en1 ++ special en2) (attention en1 ++ attention en2) (words en1 ++ words en2) [] rs)
  | _, _ => Fatal
  end.
