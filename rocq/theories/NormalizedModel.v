(** Model of /repo/normalizer/normalized.go: a text together with its original
    and the alignments between the two. *)
From Verif Require Import Base Utf8Model SliceModel PatternModel.
Local Open Scope Z_scope.

(** normalized.go:133-148.  [NormalizedString].  [alignments] holds one (start, end)
    pair per byte of the normalized text; these pairs are never written to in place,
    so they are plain values.  [alignmentsOriginal] holds one pair per byte of the
    original text; bytes of one character share one []int (createAligns), and two
    loops of TransformRange write through it, so it is modelled as a list of cell
    addresses [ns_ao] into a store [ns_cells].  Simplification: two NormalizedStrings
    never share a store or a backing array (every constructor in the file but the
    exported NewNormalizedString allocates afresh). *)
Record ns := NS {
  ns_orig : str;
  ns_norm : str;
  ns_al : list (Z * Z);
  ns_ao : list nat;
  ns_cells : list (Z * Z);
  ns_shift : Z
}.

(** The pair stored at an address. *)
Definition cell (cells : list (Z * Z)) (a : nat) : Z * Z := nth a cells (0, 0).

(** The value of the field alignmentsOriginal. *)
Definition ns_ao_values (n : ns) : list (Z * Z) := map (cell (ns_cells n)) (ns_ao n).

(** normalized.go:174-193.  createAligns: one pair per byte of each character's
    encoding (for an invalid byte, three pairs for U+FFFD). *)
Fixpoint aligns_from (rs : list N) (cur : Z) : list (Z * Z) :=
  match rs with
  | [] => []
  | r :: rs' =>
      let w := length (encode_rune r) in
      repeat (cur, cur + Z.of_nat w) w ++ aligns_from rs' (cur + Z.of_nat w)
  end.
Definition create_aligns (s : str) : list (Z * Z) := aligns_from (runes s) 0.

(** The same loop as it allocates: one address per character. *)
Fixpoint addrs_from (rs : list N) (a : nat) : list nat :=
  match rs with
  | [] => []
  | r :: rs' => repeat a (length (encode_rune r)) ++ addrs_from rs' (S a)
  end.
Fixpoint cells_from (rs : list N) (cur : Z) : list (Z * Z) :=
  match rs with
  | [] => []
  | r :: rs' => (cur, cur + zlen (encode_rune r)) :: cells_from rs' (cur + zlen (encode_rune r))
  end.

(** normalized.go:151-166.  NewNormalizedFrom. *)
Definition new_ns (s : str) : ns :=
  NS s s (create_aligns s) (addrs_from (runes s) 0) (cells_from (runes s) 0) 0.

(** normalized.go:38-54. *)
Inductive index_on := OnOriginal | OnNormalized.
Record range := Rng { r_start : Z; r_end : Z; r_on : index_on }.

(** normalized.go:99-124.  IntoFullRange (it also updates the argument in place; no
    caller looks at the argument again under other assumptions). *)
Definition into_full_range (r : range) (max : Z) : range :=
  Rng (if r_start r =? -1 then 0 else r_start r)
      (if max <? r_end r then max else r_end r) (r_on r).

(** normalized.go:1407-1416.  expandAlignments. *)
Definition expand (l : list (Z * Z)) : option (Z * Z) :=
  match l with
  | [] => None
  | a :: _ => Some (fst a, snd (last l a))
  end.

(** normalized.go:1420-1426.  applySign. *)
Definition apply_sign (origin signed : Z) : Z :=
  if origin + signed <? 0 then 0 else origin + signed.

(** normalized.go:239-286.  ConvertOffset; [None] is nil.  The two branches for 0..0
    on an empty string (266-272) cannot be reached because 261-263 return first. *)
Definition convert_offset (n : ns) (r : range) : res (option range) :=
  let '(target, on, als) :=
    match r_on r with
    | OnOriginal => (into_full_range r (zlen (ns_orig n)), OnNormalized, ns_ao_values n)
    | OnNormalized => (into_full_range r (zlen (ns_norm n)), OnOriginal, ns_al n)
    end in
  let '(s, e) := (r_start target, r_end target) in
  if s =? e then Ok (Some target)
  else if (s <? 0) || (zlen als <? s) || (e <? 0) || (zlen als <? e) then Ok None
  else
    do sub <- zslice als s e;
    match expand sub with
    | None => Panic    (* not reached: s < e *)
    | Some (a, b) => Ok (Some (Rng a b on))
    end.

(** normalized.go:289-303.  Range: part of the normalized text. *)
Definition ns_range (n : ns) (r : range) : res str :=
  match r_on r with
  | OnOriginal =>
      do o <- convert_offset n r;
      match o with None => Panic | Some nr => zslice (ns_norm n) (r_start nr) (r_end nr) end
  | OnNormalized =>
      let nr := into_full_range r (zlen (ns_norm n)) in
      zslice (ns_norm n) (r_start nr) (r_end nr)
  end.

(** normalized.go:306-321.  RangeOriginal: part of the original text. *)
Definition ns_range_original (n : ns) (r : range) : res str :=
  match r_on r with
  | OnNormalized =>
      do o <- convert_offset n r;
      match o with None => Panic | Some nr => zslice (ns_orig n) (r_start nr) (r_end nr) end
  | OnOriginal =>
      let nr := into_full_range r (zlen (ns_orig n)) in
      zslice (ns_orig n) (r_start nr) (r_end nr)
  end.

(** utf8.RuneStart: not a continuation byte. *)
Definition rune_start (b : N) : bool := negb ((128 <=? b)%N && (b <? 192)%N).

(** normalized.go:325-367.  validateRange; [None] is nil. *)
Definition validate_range (n : ns) (r : range) : res (option range) :=
  let s := match r_on r with OnOriginal => ns_orig n | OnNormalized => ns_norm n end in
  let r := into_full_range r (zlen s) in
  let '(a, b) := (r_start r, r_end r) in
  if (a <? 0) || (b <? 0) || (zlen s <? a) || (zlen s <? b) then Ok None
  else if (a =? 0) && (b =? 0) then Ok (Some r)
  else
    do ok1 <- (if a =? 0 then Ok true else do x <- zindex s a; Ok (rune_start x));
    if negb ok1 then Ok None
    else
      do ok2 <- (if b =? zlen s then Ok true else do x <- zindex s b; Ok (rune_start x));
      if negb ok2 then Ok None else Ok (Some r).

(** normalized.go:371-424.  Slice; [None] is nil. *)
Definition ns_slice (n : ns) (r : range) : res (option ns) :=
  do fr <- validate_range n r;
  match fr with
  | None => Ok None
  | Some full =>
      do conv <- convert_offset n full;
      match conv with
      | None => Panic      (* nil pointer *)
      | Some c =>
          let '(nr, orr) := match r_on full with
                            | OnOriginal => (c, full) | OnNormalized => (full, c) end in
          let nshift := r_start orr in
          do pre <- zslice (ns_ao_values n) 0 nshift;
          let oshift := match expand pre with None => 0 | Some (_, e) => e end in
          do so <- ns_range_original n full;
          do sn <- ns_range n full;
          do al <- zslice (ns_al n) (r_start nr) (r_end nr);
          do ao <- zslice (ns_ao_values n) (r_start orr) (r_end orr);
          Ok (Some (NS so sn (map (fun a => (fst a - nshift, snd a - nshift)) al)
                       (seq 0 (length ao))
                       (map (fun a => (fst a - oshift, snd a - oshift)) ao)
                       (ns_shift n + r_start orr)))
      end
  end.

(** ** TransformRange (normalized.go:440-828)

    Slices beyond the length but within the capacity are treated as panics here; for
    the two texts Go panics in that case too, at the latest in 817. *)

(** 521-532: one visit of a cell while the leading characters are removed. *)
Definition clear_cell (oshift : Z) (st : Z * list (Z * Z)) (a : nat) : Z * list (Z * Z) :=
  let '(ess, cells) := st in
  let '(x, y) := cell cells a in
  let ess' := if ess <? y then y else ess in
  let y' := apply_sign y (- oshift) in
  (ess', upd cells a (if y' <? x then y' else x, y')).

(** 510-543: removal of the leading characters; [oshift] and [offset] are local to the loop. *)
Fixpoint clear_chars (al : list (Z * Z)) (ao : list nat) (cs : list N) (offset oshift : Z)
    (st : Z * list (Z * Z)) : res (Z * list (Z * Z)) :=
  match cs with
  | [] => Ok st
  | c :: cs' =>
      let w := zlen (encode_rune c) in
      do sub <- zslice al offset (offset + w);
      match expand sub with
      | None => Panic
      | Some (lo, hi) =>
          do addrs <- zslice ao lo hi;
          clear_chars al ao cs' (offset + w) (oshift + w)
            (fold_left (clear_cell (oshift + w)) addrs st)
      end
  end.

(** The state of the main loop (553-763). *)
Record tstate := TS {
  t_ao : list nat;
  t_cells : list (Z * Z);
  t_runes : list N;          (* characters the iterator has still to give *)
  t_off : Z;                 (* offset *)
  t_shift : Z;               (* oShift *)
  t_al : list (Z * Z);       (* normalizedAlignments *)
  t_text : str               (* normalizedRunes, encoded *)
}.

(** iterator.go:23-37.  RuneIter.Next: 0 when there is nothing left. *)
Definition next_rune (rs : list N) : N * list N :=
  match rs with [] => (0%N, []) | r :: rs' => (r, rs') end.

(** 616-630: [k] characters, as many zeros as are missing; total size in bytes. *)
Fixpoint take_removed (k : nat) (rs : list N) : Z * list N :=
  match k with
  | O => (0, rs)
  | S k' =>
      let '(c, rs1) := next_rune rs in
      let '(total, rs2) := take_removed k' rs1 in
      (zlen (encode_rune c) + total, rs2)
  end.

(** 680-700: the new pair of one original byte. *)
Definition new_pair (len changes change change_orig rfn oshift : Z) (o : Z * Z) : Z * Z :=
  if 0 <? changes then (fst o, snd o + len)
  else
    let b := apply_sign (apply_sign (snd o) change) (- rfn) in
    if (changes <? 0) || (change =? change_orig)
    then (apply_sign (fst o) oshift, apply_sign b oshift)
    else (fst o, b).

(** Replacement of the addresses [lo..hi) of [ao] by freshly allocated cells. *)
Definition realloc (ao : list nat) (cells : list (Z * Z)) (lo hi : Z) (new : list (Z * Z))
  : list nat * list (Z * Z) :=
  (firstn (Z.to_nat lo) ao ++ seq (length cells) (length new) ++ skipn (Z.to_nat hi) ao,
   cells ++ new).

(** 569-762: one item of the change map. *)
Definition t_item (al : list (Z * Z)) (st : tstate) (item : str * Z) : res tstate :=
  let '(s, changes) := item in
  let idx := t_off st in
  (* 570-585 *)
  do align <- (if 0 <? changes then (if idx <? 1 then Ok (0, 0) else zindex al (idx - 1))
               else if zlen al <=? idx then zindex al (zlen al - 1) else zindex al idx);
  (* 588-599 *)
  let '(rc, rs1) := if changes <=? 0 then next_rune (t_runes st) else (0%N, t_runes st) in
  let size := if (rc =? 0)%N then 0 else zlen (encode_rune rc) in
  let change := zlen s - size in
  (* 606-630 *)
  let '(total, rs2) := take_removed (Z.to_nat (- changes)) rs1 in
  (* 638-655 *)
  do rf <- (if (0 <? total) && (idx <? zlen al) then
              do p <- zindex al idx;
              let end_idx := if zlen al <=? idx + total then zlen al - 1 else idx + total in
              do q <- zindex al end_idx;
              let rfo := Z.max 0 (snd q - snd p) in
              Ok (rfo, total - rfo)
            else Ok (0, 0));
  let '(rfo, rfn) := rf in
  (* 660-716 *)
  do addrs <- zslice (t_ao st) (fst align) (snd align);
  let vals := map (cell (t_cells st)) addrs in
  let '(ao1, cells1) :=
    match expand vals with
    | None => (t_ao st, t_cells st)
    | Some (olo, ohi) =>
        realloc (t_ao st) (t_cells st) (fst align) (snd align)
          (map (new_pair (zlen s) changes change (zlen s - (ohi - olo)) rfn (t_shift st)) vals)
    end in
  (* 719-741 *)
  do cells2 <- (if 0 <? rfo then
                  do p <- zindex al idx;
                  do q <- zindex al (idx + total);
                  do a0 <- zindex ao1 (fst align);
                  let new_idx := snd (cell cells1 a0) in
                  do gone <- zslice ao1 (snd p) (snd q);
                  Ok (fold_left (fun cs a => upd cs a (new_idx, new_idx)) gone cells1)
                else Ok cells1);
  (* 744-757 *)
  Ok (TS ao1 cells2 rs2 (idx + size + total) (t_shift st + change - total)
         (t_al st ++ repeat align (length s)) (t_text st ++ encode (runes s))).

(** 766-791: shift of everything behind the range. *)
Definition end_shift (al : list (Z * Z)) (ess oshift : Z) (ao : list nat) (cells : list (Z * Z))
  : res (list nat * list (Z * Z)) :=
  if oshift =? 0 then Ok (ao, cells)
  else
    do tail <- zslice al ess (zlen al);
    match expand tail with
    | None => Ok (ao, cells)
    | Some (lo, hi) =>
        do addrs <- zslice ao lo hi;
        Ok (realloc ao cells lo hi
              (map (fun a => (apply_sign (fst (cell cells a)) oshift,
                              apply_sign (snd (cell cells a)) oshift)) addrs))
    end.

(** 440-828.  TransformRange.  The iterator is reset before the main loop (561), so
    the characters removed by [initial] are met again there. *)
Definition transform_range (n : ns) (r : range) (items : list (str * Z)) (initial : Z) : res ns :=
  do nr <- match r_on r with
           | OnNormalized => Ok (Some (into_full_range r (zlen (ns_norm n))))
           | OnOriginal => convert_offset n r
           end;
  match nr with
  | None => Panic
  | Some nr =>
      let s := r_start nr in
      let e := if zlen (ns_al n) <? r_end nr then zlen (ns_al n) else r_end nr in
      do sel <- zslice (ns_norm n) s e;
      let rs := runes sel in
      if zlen rs <? initial then Fatal
      else
        let gone := firstn (Z.to_nat initial) rs in
        let removed := fold_right (fun c k => zlen (encode_rune c) + k) 0 gone in
        do st0 <- clear_chars (ns_al n) (ns_ao n) gone s 0 (e, ns_cells n);
        let '(ess, cells0) := st0 in
        do st <- foldR (t_item (ns_al n)) items
                   (TS (ns_ao n) cells0 rs (removed + s) (- removed) [] []);
        do fin <- end_shift (ns_al n) ess (t_shift st) (t_ao st) (t_cells st);
        let '(ao', cells') := fin in
        Ok (NS (ns_orig n)
               (firstn (Z.to_nat s) (ns_norm n) ++ t_text st ++ skipn (Z.to_nat e) (ns_norm n))
               (firstn (Z.to_nat s) (ns_al n) ++ t_al st ++ skipn (Z.to_nat e) (ns_al n))
               ao' cells' (ns_shift n))
  end.

(** 859-864.  Transform. *)
Definition transform (n : ns) (items : list (str * Z)) (initial : Z) : res ns :=
  transform_range n (Rng 0 (zlen (ns_orig n)) OnOriginal) items initial.

(** ** The operations built on it *)

(** Items of a segment of a Unicode normalization: the first character replaces, the
    others are added (887-903 and the same loop in NFC and NFKD). *)
Definition segment_items (seg : list N) : list (str * Z) :=
  match seg with
  | [] => []
  | r :: rs => (encode_rune r, 0) :: map (fun c => (encode_rune c, 1)) rs
  end.

(** 866-910.  NFD; [segs] are the segments returned by norm.Iter over the text. *)
Definition nfd (segs : str -> list (list N)) (n : ns) : res ns :=
  transform n (flat_map segment_items (segs (ns_norm n))) 0.

(** 912-949.  NFC: iterates with norm.NFD unless the text is already NFC. *)
Definition nfc (is_nfc : str -> bool) (nfd_segs : str -> list (list N)) (n : ns) : res ns :=
  if is_nfc (ns_norm n) then Ok n
  else transform n (flat_map segment_items (nfd_segs (ns_norm n))) 0.

(** 951-986.  NFKD: [None] (nil) when the text is already normalized. *)
Definition nfkd (is_nfkd : str -> bool) (segs : str -> list (list N)) (n : ns) : res (option ns) :=
  if is_nfkd (ns_norm n) then Ok None
  else do n' <- transform n (flat_map segment_items (segs (ns_norm n))) 0; Ok (Some n').

(** 988-1022.  NFKC: iterates with norm.NFKD; one item per segment. *)
Definition nfkc (is_nfkc : str -> bool) (nfkd_segs : str -> list (list N)) (n : ns) : res ns :=
  if is_nfkc (ns_norm n) then Ok n
  else transform n (flat_map (fun seg => match seg with
                                         | [] => []
                                         | [r] => [(encode_rune r, 0)]
                                         | _ => [(encode seg, -1)]
                                         end) (nfkd_segs (ns_norm n))) 0.

(** 1025-1070.  Filter.  The Go loop runs over the reversed characters; [removed] counts
    the dropped characters after the current one.  Result: items and the number of
    dropped leading characters. *)
Definition filter_step (f : N -> bool) (r : N) (st : list (str * Z) * Z) : list (str * Z) * Z :=
  let '(items, removed) := st in
  if f r then ((encode_rune r, - removed) :: items, 0) else (items, removed + 1).
Definition filter_items (f : N -> bool) (rs : list N) : list (str * Z) * Z :=
  fold_right (filter_step f) ([], 0) rs.
Definition ns_filter (f : N -> bool) (n : ns) : res ns :=
  let '(items, removed) := filter_items f (runes (ns_norm n)) in
  transform n items removed.

(** 1073-1094.  Prepend. *)
Definition prepend_items (s : str) (next : N) : list (str * Z) :=
  match runes s with
  | [] => []
  | r :: rs => (encode_rune r, 0) :: map (fun c => (encode_rune c, 1)) rs
  end ++ [(encode_rune next, 1)].
Definition ns_prepend (s : str) (n : ns) : res ns :=
  match runes (ns_norm n) with
  | [] => Ok n
  | next :: _ =>
      transform_range n (Rng 0 (zlen (encode_rune next)) OnNormalized) (prepend_items s next) 0
  end.

(** 1097-1116.  Append.  [last_rune] is the byte index and value of the last character
    the range loop meets. *)
Fixpoint last_rune (l : list (N * nat)) (i : Z) (acc : Z * N) : Z * N :=
  match l with
  | [] => acc
  | (r, w) :: l' => last_rune l' (i + Z.of_nat w) (i, r)
  end.
Definition ns_append (s : str) (n : ns) : res ns :=
  match ns_norm n with
  | [] => Ok n
  | _ =>
      let '(i, r) := last_rune (runes_w (ns_norm n)) 0 (0, 0%N) in
      transform_range n (Rng i (zlen (ns_norm n)) OnNormalized)
        ((encode_rune r, 0) :: map (fun c => (encode_rune c, 1)) (runes s)) 0
  end.

(** 1123-1131.  Map (the function argument is not used). *)
Definition ns_map (f : N -> N) (n : ns) : res ns :=
  transform n (map (fun c => (encode_rune c, 0)) (runes (ns_norm n))) 0.

(** 1135-1144.  ForEach: the alignments are left as they are. *)
Definition ns_for_each (f : N -> N) (n : ns) : ns :=
  NS (ns_orig n) (encode (map f (runes (ns_norm n)))) (ns_al n) (ns_ao n) (ns_cells n) (ns_shift n).

(** 1147-1151.  RemoveAccents; [mn] is the Unicode category Mn. *)
Definition remove_accents (mn : N -> bool) (n : ns) : res ns := ns_filter (fun r => negb (mn r)) n.

(** 1154-1165.  Lowercase and Uppercase; [f] is strings.ToLower or strings.ToUpper. *)
Definition case_map (f : str -> str) (n : ns) : ns :=
  NS (ns_orig n) (f (ns_norm n)) (ns_al n) (ns_ao n) (ns_cells n) (ns_shift n).

(** 1168-1171.  Clear: [Len()] bytes are passed as a number of characters. *)
Definition ns_clear (n : ns) : res ns := transform n [] (zlen (ns_norm n)).

(** 1308-1361.  lrstrip. *)
Fixpoint count_while (f : N -> bool) (rs : list N) : nat :=
  match rs with [] => O | r :: rs' => if f r then S (count_while f rs') else O end.
Definition strip_items (rs : list N) (lead trail : nat) : list (str * Z) :=
  flat_map (fun ir =>
    let '(i, r) := ir in
    if (i <? lead)%nat || (length rs - trail <=? i)%nat then []
    else if (S i =? length rs - trail)%nat then [(encode_rune r, - Z.of_nat trail)]
    else [(encode_rune r, 0)]) (combine (seq 0 (length rs)) rs).
Definition lrstrip (sp : N -> bool) (l r : bool) (n : ns) : res ns :=
  let rs := runes (ns_norm n) in
  let lead := if l then count_while sp rs else O in
  let trail := if r then count_while sp (rev rs) else O in
  if (0 <? lead)%nat || (0 <? trail)%nat
  then transform n (strip_items rs lead trail) (Z.of_nat lead)
  else Ok n.

(** 1428-1468.  Replace. *)
Definition replace_step (content : str) (st : ns * Z) (m : offsets_match) : res (ns * Z) :=
  let '(n, offset) := st in
  if snd m then
    let '(a, b) := fst m in
    let r0 := apply_sign a offset in
    let r1 := apply_sign b offset in
    do sub <- zslice (ns_norm n) r0 r1;
    do n' <- transform_range n (Rng r0 r1 OnNormalized)
               (map (fun c => (encode_rune c, 1)) (runes content)) (zlen (runes sub));
    Ok (n', offset + (zlen (encode (runes content)) - (b - a)))
  else Ok (n, offset).
Definition ns_replace (p : pattern) (content : str) (n : ns) : res ns :=
  do ms <- find_matches p (ns_norm n);
  do st <- foldR (replace_step content) ms (n, 0);
  Ok (fst st).

(** ** Split (1191-1290) *)
Inductive behavior := Removed | Isolated | MergedWithPrevious | MergedWithNext | Contiguous.

(** Update of the end of the last element of the (reversed) accumulator. *)
Definition set_last_end (acc : list offsets_match) (e : Z) : list offsets_match :=
  match acc with ((s, _), k) :: acc' => ((s, e), k) :: acc' | [] => [] end.
Definition set_last_start (acc : list offsets_match) (s : Z) : list offsets_match :=
  match acc with ((_, e), k) :: acc' => ((s, e), k) :: acc' | [] => [] end.

(** 1213-1230.  [acc] is kept reversed; [pm] is previousMatch. *)
Definition merge_prev_step (st : list offsets_match * bool) (m : offsets_match) :=
  let '(acc, pm) := st in
  (if snd m && negb pm then
     match acc with [] => [(fst m, false)] | _ => set_last_end acc (snd (fst m)) end
   else (fst m, false) :: acc, snd m).
(** 1231-1248. *)
Definition contiguous_step (st : list offsets_match * bool) (m : offsets_match) :=
  let '(acc, pm) := st in
  (if Bool.eqb (snd m) pm then
     match acc with [] => [(fst m, false)] | _ => set_last_end acc (snd (fst m)) end
   else (fst m, false) :: acc, snd m).
(** 1250-1269: from the last match to the first. *)
Definition merge_next_step (st : list offsets_match * bool) (m : offsets_match) :=
  let '(acc, pm) := st in
  (if snd m && negb pm then
     match acc with [] => [(fst m, false)] | _ => set_last_start acc (fst (fst m)) end
   else (fst m, false) :: acc, snd m).

(** 1204-1275: ranges to keep (flag false) or drop (flag true). *)
Definition split_ranges (b : behavior) (ms : list offsets_match) : list offsets_match :=
  match b with
  | Isolated => map (fun m => (fst m, false)) ms
  | Removed => ms
  | MergedWithPrevious => rev (fst (fold_left merge_prev_step ms ([], false)))
  | Contiguous => rev (fst (fold_left contiguous_step ms ([], false)))
  | MergedWithNext => fst (fold_left merge_next_step (rev ms) ([], false))
  end.

(** 1278-1287: one slice per kept range; nil slices are skipped. *)
Fixpoint slices (n : ns) (ms : list offsets_match) : res (list ns) :=
  match ms with
  | [] => Ok []
  | (_, true) :: ms' => slices n ms'
  | ((a, b), false) :: ms' =>
      do sl <- ns_slice n (Rng a b OnNormalized);
      do rest <- slices n ms';
      Ok (match sl with Some x => x :: rest | None => rest end)
  end.

Definition ns_split (n : ns) (p : pattern) (b : behavior) : res (list ns) :=
  do ms <- find_matches p (ns_norm n);
  slices n (split_ranges b ms).
