(** Model of /repo/encoding.go and of the batch helpers in /repo/util.go. *)
From Verif Require Import Base.

(** encoding.go:18-28.  [Offsets] holds two-element slices in the Go code; they
    are pairs here.  [SequenceRanges] is a Go map, [None] is the nil map, a
    [Range] (util.go:185) is the list of token indices it contains.  nil and
    empty slices are not distinguished (no modelled operation does). *)
Inductive Encoding : Type := mkEnc {
  ids : list Z;
  type_ids : list Z;
  tokens : list str;
  offsets : list (Z * Z);
  special : list Z;
  attention : list Z;
  words : list Z;
  overflowing : list Encoding;
  seq_ranges : option (list (Z * list Z))
}.

(** encoding.go:152-154 *)
Definition enc_len (e : Encoding) : Z := zlen (ids e).

(** util.go:187-201: NewRange, with its two panics. *)
Fixpoint zrange (n : nat) (start : Z) : list Z :=
  match n with O => [] | S n' => start :: zrange n' (start + 1)%Z end.

Definition new_range (s t : Z) : res (list Z) :=
  if (s <? 0)%Z then Panic
  else if ((t <? 0) || (t <=? s))%Z then Panic
  else Ok (zrange (Z.to_nat (t - s)) s).

(** encoding.go:181-189 *)
Definition set_sequence_ids (e : Encoding) (sid : Z) : res Encoding :=
  if (0 <? enc_len e)%Z then
    do r <- new_range 0 (enc_len e);
    Ok (mkEnc (ids e) (type_ids e) (tokens e) (offsets e) (special e)
              (attention e) (words e) (overflowing e)
              (Some (aset Z.eqb sid r
                       (match seq_ranges e with Some m => m | None => [] end))))
  else Ok e.

(** encoding.go:671-694: one overflow window of one attribute list. *)
Definition get_current_part {A} (previous current : list A) (size idx stride : Z)
  : list A :=
  if ((size <=? 0) || (idx <? 0) || (stride <? 0))%Z then []
  else
    let stride := if (zlen previous <? stride)%Z then zlen previous else stride in
    let prev := skipn (Z.to_nat (zlen previous - stride)) previous in
    let start := (idx * size)%Z in
    if (zlen current <=? start)%Z then prev
    else
      let fin := ((idx + 1) * size)%Z in
      let fin := if (zlen current <? fin)%Z then zlen current else fin in
      prev ++ firstn (Z.to_nat (fin - start)) (skipn (Z.to_nat start) current).

(** encoding.go:386-401: the while loop building the overflow windows from the
    overflowing attribute lists [o].  The fields of [o] not read by the loop
    (Overflowing, SequenceRanges) are unused.  Windows get no ranges. *)
Fixpoint overflow_parts (fuel : nat) (prev o : Encoding) (size partId stride : Z)
  : res (list Encoding) :=
  if (size * partId <? zlen (ids o))%Z then
    match fuel with
    | O => NoFuel
    | S fuel' =>
        let w := mkEnc
          (get_current_part (ids prev) (ids o) size partId stride)
          (get_current_part (type_ids prev) (type_ids o) size partId stride)
          (get_current_part (tokens prev) (tokens o) size partId stride)
          (get_current_part (offsets prev) (offsets o) size partId stride)
          (get_current_part (special prev) (special o) size partId stride)
          (get_current_part (attention prev) (attention o) size partId stride)
          (get_current_part (words prev) (words o) size partId stride)
          [] None in
        do ws <- overflow_parts fuel' w o size (partId + 1) stride;
        Ok (w :: ws)
    end
  else Ok [].

(** encoding.go:343-406.  The result is the receiver after the call and whether
    an error was returned.  Slicing an attribute list beyond its length is a
    panic here (in Go spare capacity may hide it); the theorems only use
    encodings whose lists are equally long. *)
Definition truncate (e : Encoding) (maxLen stride : Z) : res (Encoding * bool) :=
  if ((maxLen <=? stride) || (maxLen =? 0))%Z then Ok (e, true)
  else if (zlen (ids e) <=? maxLen)%Z then Ok (e, false)
  else
    do nIds <- zslice (ids e) 0 maxLen;
    do oIds <- zslice (ids e) maxLen (zlen (ids e));
    do nTy <- zslice (type_ids e) 0 maxLen;
    do oTy <- zslice (type_ids e) maxLen (zlen (type_ids e));
    do nTok <- zslice (tokens e) 0 maxLen;
    do oTok <- zslice (tokens e) maxLen (zlen (tokens e));
    do nOff <- zslice (offsets e) 0 maxLen;
    do oOff <- zslice (offsets e) maxLen (zlen (offsets e));
    do nSp <- zslice (special e) 0 maxLen;
    do oSp <- zslice (special e) maxLen (zlen (special e));
    do nAt <- zslice (attention e) 0 maxLen;
    do oAt <- zslice (attention e) maxLen (zlen (attention e));
    do nW <- zslice (words e) 0 maxLen;
    do oW <- zslice (words e) maxLen (zlen (words e));
    let main := mkEnc nIds nTy nTok nOff nSp nAt nW [] None in
    let rest := mkEnc oIds oTy oTok oOff oSp oAt oW [] None in
    do parts <- overflow_parts (length oIds) main rest (maxLen - stride) 0 stride;
    Ok (mkEnc nIds nTy nTok nOff nSp nAt nW parts (seq_ranges e), false).

(** encoding.go:457-466: ranges of the pair are shifted by the length of the
    receiver and overwrite ranges with the same key ([util.DeepCopy] into the
    local [oldRange] always fails, its error is dropped, so [oldRange] is nil).
    Writing to a nil map panics. *)
Definition merge_ranges (originalLen : Z) (mine : option (list (Z * list Z)))
  (theirs : option (list (Z * list Z))) : res (option (list (Z * list Z))) :=
  foldR (fun acc kr =>
    let '(k, r) := kr in
    do r0 <- zindex r 0;
    do rl <- zindex r (zlen r - 1);
    do nr <- new_range (originalLen + r0) (originalLen + rl + 1);
    match acc with
    | None => Panic
    | Some m => Ok (Some (aset Z.eqb k nr m))
    end)
    (match theirs with None => [] | Some m => m end) mine.

(** encoding.go:475-492 *)
Definition shift_offsets (by_ : Z) (l : list (Z * Z)) : list (Z * Z) :=
  map (fun o => (fst o + by_, snd o + by_)%Z) l.

Definition starting_offset (growing : bool) (l : list (Z * Z)) : Z :=
  if growing then snd (last l (0, 0)%Z) else 0%Z.

(** encoding.go:453-494: everything but the overflow combinations. *)
Definition merge_flat (e p : Encoding) (growing : bool) (over : list Encoding)
  : res Encoding :=
  do rs <- merge_ranges (enc_len e) (seq_ranges e) (seq_ranges p);
  Ok (mkEnc (ids e ++ ids p) (type_ids e ++ type_ids p) (tokens e ++ tokens p)
            (offsets e ++ shift_offsets (starting_offset growing (offsets e)) (offsets p))
            (special e ++ special p) (attention e ++ attention p)
            (words e ++ words p) over rs).

(** encoding.go:419-495.  [Clone] (136-144, a gob round trip) is the identity on
    this representation: gob drops empty slices and nil maps only.  Overwritten
    backing arrays are not modelled here (see SliceModel.v). *)
Fixpoint merge_with (growing : bool) (e : Encoding) {struct e} : Encoding -> res Encoding :=
  fix inner (p : Encoding) {struct p} : res Encoding :=
    do part1 <- mapR (fun o =>
        do m <- merge_with growing o p;
        do ms <- mapR (fun q => merge_with growing o q) (overflowing p);
        Ok (m :: ms)) (overflowing e);
    do part2 <- mapR (fun q => inner q) (overflowing p);
    merge_flat e p growing (concat part1 ++ part2).

(** encoding.go:409-416 *)
Definition merge (e : Encoding) (l : list Encoding) (growing : bool) : res Encoding :=
  foldR (fun acc p => merge_with growing acc p) l e.

Inductive direction := PLeft | PRight.

(** encoding.go:573-640.  Left: [make] panics on a negative length; type ids are
    the pads followed by the *new ids*; the loop over the fresh offsets slice
    runs to [len(newIds)] and indexes out of range unless the encoding is empty. *)
Definition pad1 (e : Encoding) (target padId padTypeId : Z) (padToken : str)
  (d : direction) : res Encoding :=
  let padLength := (target - zlen (ids e))%Z in
  let n := Z.to_nat padLength in
  match d with
  | PLeft =>
      if (padLength <? 0)%Z then Panic
      else
        let newIds := repeat padId n ++ ids e in
        let newTypeIds := repeat padTypeId n ++ newIds in
        if (padLength <? zlen newIds)%Z then Panic
        else Ok (mkEnc newIds newTypeIds (repeat padToken n ++ tokens e)
                   (repeat (0, 0)%Z n ++ offsets e) (repeat 1%Z n ++ special e)
                   (repeat 0%Z n ++ attention e) (repeat (-1)%Z n ++ words e)
                   (overflowing e) (seq_ranges e))
  | PRight =>
      Ok (mkEnc (ids e ++ repeat padId n) (type_ids e ++ repeat padTypeId n)
            (tokens e ++ repeat padToken n) (offsets e ++ repeat (0, 0)%Z n)
            (special e ++ repeat 1%Z n) (attention e ++ repeat 0%Z n)
            (words e ++ repeat (-1)%Z n) (overflowing e) (seq_ranges e))
  end.

Definition set_overflowing (e : Encoding) (o : list Encoding) : Encoding :=
  mkEnc (ids e) (type_ids e) (tokens e) (offsets e) (special e) (attention e)
        (words e) o (seq_ranges e).

(** encoding.go:554-571 *)
Definition pad (e : Encoding) (target padId padTypeId : Z) (padToken : str)
  (d : direction) : res Encoding :=
  do over <- mapR (fun o => pad1 o target padId padTypeId padToken d) (overflowing e);
  let e' := set_overflowing e over in
  if (target <=? zlen (ids e))%Z then Ok e'
  else pad1 e' target padId padTypeId padToken d.

(** encoding.go:264-287.  Indices are taken in the *filtered* list. *)
Fixpoint first_index (p : Z -> bool) (l : list Z) (i : Z) : option Z :=
  match l with
  | [] => None
  | x :: xs => if p x then Some i else first_index p xs (i + 1)%Z
  end.

Definition word2tokens (e : Encoding) (w : Z) : option (Z * Z) :=
  let inRange := filter (fun x => (x <=? w)%Z) (words e) in
  match first_index (fun x => (x =? w)%Z) inRange 0 with
  | Some s => Some (s, zlen inRange)
  | None => None
  end.

(** encoding.go:291-300; on failure Word2Tokens returns (0,0,false), so the
    not-found case goes to the first branch. *)
Definition word2chars (e : Encoding) (w : Z) : res (option (Z * Z)) :=
  match word2tokens e w with
  | None => Ok None
  | Some (s, t) =>
      if (t =? 0)%Z then Ok None
      else do os <- zindex (offsets e) s;
           do oe <- zindex (offsets e) (t - 1);
           Ok (Some (fst os, snd oe))
  end.

(** encoding.go:303-309: the bound test uses [>], so index = length panics. *)
Definition token2chars (e : Encoding) (i : Z) : res (option (Z * Z)) :=
  if ((i <? 0) || (zlen (offsets e) <? i))%Z then Ok None
  else do o <- zindex (offsets e) i; Ok (Some o).

(** encoding.go:312-320 *)
Fixpoint token2word_loop (l : list Z) (i tok : Z) : option Z :=
  match l with
  | [] => None
  | w :: ws => if (i =? tok)%Z then Some w else token2word_loop ws (i + 1)%Z tok
  end.
Definition token2word (e : Encoding) (tok : Z) : option Z :=
  token2word_loop (words e) 0 tok.

(** encoding.go:323-331 *)
Fixpoint char2token_loop (l : list (Z * Z)) (i pos : Z) : option Z :=
  match l with
  | [] => None
  | o :: os => if ((fst o <=? pos) && (pos <? snd o))%Z then Some i
               else char2token_loop os (i + 1)%Z pos
  end.
Definition char2token (e : Encoding) (pos : Z) : option Z :=
  char2token_loop (offsets e) 0 pos.

(** encoding.go:334-340 *)
Definition char2word (e : Encoding) (pos : Z) : option Z :=
  match char2token e pos with Some i => token2word e i | None => None end.

(** util.go:207-215 *)
Definition range_contains (r : list Z) (x : Z) : bool := existsb (Z.eqb x) r.

(** encoding.go:643-657.  The Go loop visits the map in an unspecified order;
    the association list order is one such order. *)
Definition token2sequence (e : Encoding) (tok : Z) : option Z :=
  if (enc_len e <? tok)%Z then None
  else match seq_ranges e with
       | None | Some [] => Some 0%Z
       | Some m =>
           match find (fun kr => range_contains (snd kr) tok) m with
           | Some (k, _) => Some k
           | None => None
           end
       end.

(** util.go:72-76 *)
Inductive trunc_strategy := LongestFirst | OnlyFirst | OnlySecond.

(** util.go:113-118: [nSecond] is decremented in every round, also when
    [nFirst] was. *)
Fixpoint longest_first_loop (n : nat) (nFirst nSecond : Z) : Z * Z :=
  match n with
  | O => (nFirst, nSecond)
  | S n' =>
      longest_first_loop n'
        (if (nSecond <? nFirst)%Z then nFirst - 1 else nFirst)%Z (nSecond - 1)%Z
  end.

(** The encoding after a Truncate call whose error is ignored (util.go:120-123,129). *)
Definition truncate_ignoring_error (e : Encoding) (m s : Z) : res Encoding :=
  do r <- truncate e m s; Ok (fst r).

(** util.go:83-152 *)
Definition truncate_encodings (e : Encoding) (pair : option Encoding)
  (strategy : trunc_strategy) (maxLength stride : Z) : res (Encoding * option Encoding) :=
  if (maxLength =? 0)%Z then Ok (e, pair)
  else
    let nSec := match pair with Some p => enc_len p | None => 0%Z end in
    let total := (enc_len e + nSec)%Z in
    if (total <? maxLength)%Z then Ok (e, pair)
    else
      let toRemove := (total - maxLength)%Z in
      match strategy with
      | LongestFirst =>
          let '(n1, n2) := longest_first_loop (Z.to_nat toRemove) (enc_len e) nSec in
          do e' <- truncate_ignoring_error e n1 stride;
          match pair with
          | None => Ok (e', None)
          | Some p => do p' <- truncate_ignoring_error p n2 stride; Ok (e', Some p')
          end
      | OnlyFirst =>
          if (toRemove <? enc_len e)%Z then
            do e' <- truncate_ignoring_error e (enc_len e - toRemove) stride;
            Ok (e', pair)
          else Fatal
      | OnlySecond =>
          match pair with
          | None => Fatal
          | Some p =>
              if (toRemove <? enc_len p)%Z then
                do p' <- truncate_ignoring_error p (enc_len p - toRemove) stride;
                Ok (e, Some p')
              else Fatal
          end
      end.

(** util.go:32-67: the two named strategies; other names leave [padLength] 0. *)
Inductive pad_strategy := BatchLongest | Fixed (n : Z) | OtherStrategy.

(** util.go:165-171 *)
Definition batch_longest (l : list Encoding) : Z :=
  fold_left (fun m e => if (m <? enc_len e)%Z then enc_len e else m) l 0%Z.

(** util.go:154-183 *)
Definition pad_encodings (l : list Encoding) (s : pad_strategy)
  (d : direction) (padId padTypeId : Z) (padToken : str) : res (list Encoding) :=
  match l with
  | [] => Ok []
  | _ =>
      let n := match s with BatchLongest => batch_longest l | Fixed n => n | OtherStrategy => 0%Z end in
      mapR (fun e => pad e n padId padTypeId padToken d) l
  end.
