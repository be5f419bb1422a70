(** Model of /repo/pretokenizer.go: a text cut into pieces that get tokens attached, and
    its conversion to an encoding. *)
From Verif Require Import Base Utf8Model NormalizedModel EncodingModel BpeModel.
Open Scope Z_scope.

(** pretokenizer.go:31-40.  [Split]; [None] is a nil token slice.  The same pair is
    produced by split functions ([SplitIdx], added-vocabulary.go:467-470). *)
Record split := Spl { sp_ns : ns; sp_toks : option (list token) }.

(** pretokenizer.go:54-57. *)
Record pretok := PT { pt_orig : str; pt_splits : list split }.

(** pretokenizer.go:296-310.  NewPreTokenizedString. *)
Definition pt_from_ns (n : ns) : pretok := PT (ns_orig n) [Spl n None].
Definition pt_new (s : str) : pretok := pt_from_ns (new_ns s).

(** pretokenizer.go:72-95.  [Split]; the split function may panic. *)
Fixpoint split_pieces (f : nat -> ns -> res (list split)) (i : nat) (l : list split) : res (list split) :=
  match l with
  | [] => Ok []
  | sp :: l' =>
      match sp_toks sp with
      | Some _ => do rest <- split_pieces f (S i) l'; Ok (sp :: rest)
      | None =>
          do new <- f i (sp_ns sp);
          do rest <- split_pieces f (S i) l';
          Ok (filter (fun x => match ns_norm (sp_ns x) with [] => false | _ => true end) new ++ rest)
      end
  end.
Definition pt_split (f : nat -> ns -> res (list split)) (p : pretok) : res pretok :=
  do l <- split_pieces f 0 (pt_splits p); Ok (PT (pt_orig p) l).

(** pretokenizer.go:99-113.  [Normalize]: pieces with tokens are not copied. *)
Fixpoint normalize_pieces (f : ns -> res ns) (l : list split) : res (list split) :=
  match l with
  | [] => Ok []
  | sp :: l' =>
      match sp_toks sp with
      | Some _ => normalize_pieces f l'
      | None => do n <- f (sp_ns sp); do rest <- normalize_pieces f l'; Ok (Spl n None :: rest)
      end
  end.
Definition pt_normalize (f : ns -> res ns) (p : pretok) : res pretok :=
  do l <- normalize_pieces f (pt_splits p); Ok (PT (pt_orig p) l).

(** pretokenizer.go:117-134.  [Tokenize]; the token slice may come back nil. *)
Fixpoint tokenize_pieces (f : ns -> res (option (list token))) (l : list split) : res (list split) :=
  match l with
  | [] => Ok []
  | sp :: l' =>
      do sp' <- match sp_toks sp with
                | Some _ => Ok sp
                | None => do t <- f (sp_ns sp); Ok (Spl (sp_ns sp) t)
                end;
      do rest <- tokenize_pieces f l'; Ok (sp' :: rest)
  end.
Definition pt_tokenize (f : ns -> res (option (list token))) (p : pretok) : res pretok :=
  do l <- tokenize_pieces f (pt_splits p); Ok (PT (pt_orig p) l).

(** pretokenizer.go:22-25, and any other integer. *)
Inductive offset_type := OByte | OChar | OInvalid.

(** pretokenizer.go:156-169.  The map from byte to character positions; the range loop
    advances by the bytes read (1 for an invalid byte), the inner loop writes
    len(string(r)) entries (3 for U+FFFD).  [pos] is byteIdx, [k] currRuneIdx. *)
Fixpoint char_map (rs : list (N * nat)) (pos k : Z) (m : list (Z * Z)) : list (Z * Z) :=
  match rs with
  | [] => m
  | (r, w) :: rs' =>
      char_map rs' (pos + Z.of_nat w) (k + 1)
        (fold_left (fun m n => aset Z.eqb (pos + Z.of_nat n) k m) (seq 0 (length (encode_rune r))) m)
  end.

(** normalized.go:222-224 and pretokenizer.go:189-198.  The token's range in the original
    text. *)
Definition byte_offsets (n : ns) (o : Z * Z) : res (Z * Z) :=
  do c <- convert_offset n (Rng (fst o) (snd o) OnNormalized);
  Ok match c with
     | None => (ns_shift n + fst o, ns_shift n + snd o)
     | Some r => (ns_shift n + r_start r, ns_shift n + r_end r)
     end.

(** pretokenizer.go:200-226.  Its conversion with the map (empty for bytes). *)
Definition char_offsets (m : list (Z * Z)) (o : Z * Z) : Z * Z :=
  match aget Z.eqb (fst o) m, aget Z.eqb (snd o) m with
  | Some s, Some e => (s, e)
  | Some s, None => (s, match aget Z.eqb (snd o - 1) m with Some l => l | None => s + 1 end)
  | None, _ => o
  end.

(** pretokenizer.go:184-243.  All tokens with their word index and offsets. *)
Fixpoint piece_rows (m : list (Z * Z)) (n : ns) (word : Z) (toks : list token) : res (list (token * Z * (Z * Z))) :=
  match toks with
  | [] => Ok []
  | t :: toks' =>
      do o <- byte_offsets n (t_off t);
      do rest <- piece_rows m n word toks';
      Ok ((t, word, char_offsets m o) :: rest)
  end.
Fixpoint all_rows (m : list (Z * Z)) (wordIdx : Z) (idx : nat) (l : list split) : res (list (token * Z * (Z * Z))) :=
  match l with
  | [] => Ok []
  | sp :: l' =>
      do rows <- piece_rows m (sp_ns sp) (if wordIdx =? -1 then Z.of_nat idx else wordIdx)
                   (match sp_toks sp with Some t => t | None => [] end);
      do rest <- all_rows m wordIdx (S idx) l';
      Ok (rows ++ rest)
  end.

(** encoding.go:90-102.  DefaultEncoding: all slices empty, an empty map of ranges. *)
Definition default_encoding : Encoding := mkEnc [] [] [] [] [] [] [] [] (Some []).

(** pretokenizer.go:143-255.  [IntoEncoding]. *)
Definition into_encoding (p : pretok) (typeId wordIdx : Z) (ot : offset_type) : res Encoding :=
  match pt_splits p with
  | [] => Ok default_encoding
  | _ =>
      if existsb (fun sp => match sp_toks sp with None | Some [] => true | _ => false end) (pt_splits p) then Err
      else
        do m <- match ot with
                | OChar => Ok (char_map (runes_w (pt_orig p)) 0 0 [])
                | OByte => Ok []
                | OInvalid => Err
                end;
        do rows <- all_rows m wordIdx 0 (pt_splits p);
        let tok x := fst (fst x) in
        Ok (mkEnc (map (fun x => t_id (tok x)) rows) (map (fun _ => typeId) rows)
                  (map (fun x => t_value (tok x)) rows) (map snd rows)
                  (map (fun _ => 0) rows) (map (fun _ => 1) rows)
                  (map (fun x => snd (fst x)) rows) [] (Some []))
  end.

(** pretokenizer.go:319-334.  NewBytesToCharOffsetConverter. *)
Fixpoint b2c_map (rs : list N) (n k : Z) (m : list (Z * Z)) : list (Z * Z) :=
  match rs with
  | [] => m
  | r :: rs' =>
      let w := length (encode_rune r) in
      b2c_map rs' (n + Z.of_nat w) (k + 1)
        (fold_left (fun m i => aset Z.eqb (n + Z.of_nat i) k m) (seq 0 w) m)
  end.

(** pretokenizer.go:337-352.  [Convert]. *)
Definition b2c_convert (m : list (Z * Z)) (o : Z * Z) : res (Z * Z) :=
  match aget Z.eqb (fst o) m, aget Z.eqb (snd o) m with
  | Some s, Some e => Ok (s, e)
  | _, _ => Err
  end.

(** pretokenizer.go:260-293.  [GetSplits]: text, offsets and tokens of each piece; the
    converter's error is turned into a panic. *)
Fixpoint get_pieces (conv : option (list (Z * Z))) (on : index_on) (offset : Z) (l : list split)
  : res (list (str * (Z * Z) * option (list token))) :=
  match l with
  | [] => Ok []
  | sp :: l' =>
      let n := sp_ns sp in
      let offset' := match on with OnOriginal => offset | OnNormalized => offset + zlen (ns_norm n) end in
      let o := match on with
               | OnOriginal => (ns_shift n, ns_shift n + zlen (ns_orig n))
               | OnNormalized => (offset' - zlen (ns_norm n), offset')
               end in
      do o' <- match conv with
               | None => Ok o
               | Some m => match b2c_convert m o with Ok x => Ok x | _ => Panic end
               end;
      do rest <- get_pieces conv on offset' l';
      Ok ((ns_norm n, o', sp_toks sp) :: rest)
  end.
Definition get_splits (p : pretok) (on : index_on) (chars : bool) : res (list (str * (Z * Z) * option (list token))) :=
  get_pieces (if chars then Some (b2c_map (runes (pt_orig p)) 0 0 []) else None) on 0 (pt_splits p).
