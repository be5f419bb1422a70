(** Model of the post-processors: /repo/processor/, the PostProcessor part of
    /repo/pretokenizer/bytelevel.go and the helpers and PostProcess of /repo/tokenizer.go.

    Encodings are values: that processOffsets changes the caller's encoding in place, and
    that merged encodings may share backing arrays with their parts (see SliceModel.v), is
    not modelled here. *)
From Verif Require Import Base Utf8Model EncodingModel.
Open Scope Z_scope.

(** processor/bert.go:7-10. *)
Record post_token := PTok { pt_value : str; pt_id : Z }.

(** encoding.go:56-73.  NewEncoding without overflowing encodings: an empty range map. *)
Definition new_encoding (i ty : list Z) (tk : list str) (off : list (Z * Z)) (sp att w : list Z) : Encoding :=
  mkEnc i ty tk off sp att w [] (Some []).

(** tokenizer.go:77-87. *)
Definition default_process (e : Encoding) (pair : option Encoding) : res Encoding :=
  match pair with
  | None => Ok e
  | Some p => merge_with false e p
  end.

(** ** BERT *)

(** processor/bert.go:74-116. *)
Definition bert_add (cls sep : post_token) (e : Encoding) : Encoding :=
  new_encoding (pt_id cls :: ids e ++ [pt_id sep]) (0 :: type_ids e ++ [0])
    (pt_value cls :: tokens e ++ [pt_value sep]) ((0, 0) :: offsets e ++ [(0, 0)])
    (1 :: repeat 0 (length (ids e)) ++ [1]) (repeat 1 (length (ids e) + 2))
    (-1 :: words e ++ [-1]).

(** processor/bert.go:120-156. *)
Definition bert_pair_add (sep : post_token) (e : Encoding) : Encoding :=
  new_encoding (ids e ++ [pt_id sep]) (type_ids e ++ [1]) (tokens e ++ [pt_value sep])
    (offsets e ++ [(0, 0)]) (repeat 0 (length (ids e)) ++ [1]) (repeat 1 (length (ids e)) ++ [1])
    (words e ++ [-1]).

(** The part bert.go:41-67 and roberta.go:99-122 share: special tokens around the encoding
    and its overflowing ones, then the merge with the pair. *)
Definition add_and_merge (add pair_add : Encoding -> Encoding) (e : Encoding) (pair : option Encoding) : res Encoding :=
  let e' := set_overflowing (add e) (map add (overflowing e)) in
  match pair with
  | None => Ok e'
  | Some p => merge_with false e' (set_overflowing (pair_add p) (map pair_add (overflowing p)))
  end.

(** processor/bert.go:36-70. *)
Definition bert_process (cls sep : post_token) (e : Encoding) (pair : option Encoding) (add : bool) : res Encoding :=
  if negb add then default_process e pair
  else add_and_merge (bert_add cls sep) (bert_pair_add sep) e pair.

(** ** Offsets trimmed of the spaces written as "Ġ" *)

(** pretokenizer/bytelevel.go:303-331. *)
Fixpoint leading (rs : list N) : Z :=
  match rs with
  | [] => 0
  | c :: rs' => if (c =? 288)%N then 1 + leading rs' else 0
  end.

(** bytelevel.go:333-363.  [i] is the index of the token. *)
Definition trim_offset (prefix : bool) (i : nat) (tok : str) (o : Z * Z) : Z * Z :=
  let lead := leading (runes tok) in
  let trail := leading (rev (runes tok)) in
  let ld := if ((i =? 0)%nat && prefix && (lead =? 1))%bool then 0 else lead in
  let o0 := if 0 <? lead then (if snd o <? fst o + ld then snd o else fst o + ld) else fst o in
  let o1 := if ((0 <? trail) && (trail <=? snd o))%bool
            then (if snd o - trail <? o0 then o0 else snd o - trail) else snd o in
  (o0, o1).

(** bytelevel.go:300-374.  Fewer offsets than tokens panic. *)
Fixpoint trim_from (prefix : bool) (i : nat) (toks : list str) (offs : list (Z * Z)) : res (list (Z * Z)) :=
  match toks, offs with
  | [], _ => Ok []
  | _ :: _, [] => Panic
  | t :: toks', o :: offs' => do rest <- trim_from prefix (S i) toks' offs'; Ok (trim_offset prefix i t o :: rest)
  end.
Definition set_offsets (e : Encoding) (o : list (Z * Z)) : Encoding :=
  mkEnc (ids e) (type_ids e) (tokens e) o (special e) (attention e) (words e) (overflowing e) (seq_ranges e).
Definition process_offsets (prefix : bool) (e : Encoding) : res Encoding :=
  do o <- trim_from prefix 0 (tokens e) (offsets e); Ok (set_offsets e o).

(** bytelevel.go:273-280, roberta.go:71-90: the encoding and its overflowing ones. *)
Definition process_all_offsets (prefix : bool) (e : Encoding) : res Encoding :=
  do e1 <- process_offsets prefix e;
  do over <- mapR (process_offsets prefix) (overflowing e1);
  Ok (set_overflowing e1 over).

(** ** RoBERTa *)

(** processor/roberta.go:130-172. *)
Definition roberta_add (cls sep : post_token) (e : Encoding) : Encoding :=
  new_encoding (pt_id cls :: ids e ++ [pt_id sep]) (0 :: type_ids e ++ [0])
    (pt_value cls :: tokens e ++ [pt_value sep]) ((0, 0) :: offsets e ++ [(0, 0)])
    (1 :: repeat 0 (length (special e)) ++ [1]) (1 :: repeat 1 (length (attention e)) ++ [1])
    (-1 :: words e ++ [-1]).

(** processor/roberta.go:178-220. *)
Definition roberta_pair_add (sep : post_token) (e : Encoding) : Encoding :=
  new_encoding (pt_id sep :: ids e ++ [pt_id sep]) (1 :: type_ids e ++ [1])
    (pt_value sep :: tokens e ++ [pt_value sep]) ((0, 0) :: offsets e ++ [(0, 0)])
    (1 :: repeat 0 (length (special e)) ++ [1]) (1 :: repeat 1 (length (attention e)) ++ [1])
    (-1 :: words e ++ [-1]).

(** processor/roberta.go:62-124.  Without trimOffsets newEncoding stays nil: [None] is a
    nil result, using it a panic. *)
Definition roberta_process (cls sep : post_token) (trim prefix : bool) (e : Encoding) (pair : option Encoding) (add : bool)
  : res (option Encoding) :=
  if trim then
    do e1 <- process_all_offsets prefix e;
    do p1 <- match pair with
             | None => Ok None
             | Some p => do p1 <- process_all_offsets prefix p; Ok (Some p1)
             end;
    do r <- (if negb add then default_process e1 p1
             else add_and_merge (roberta_add cls sep) (roberta_pair_add sep) e1 p1);
    Ok (Some r)
  else if negb add then Ok None else Panic.

(** ** Templates *)

(** processor/template.go:20-37.  [PSeq b ty]: sequence A, or B if [b]. *)
Inductive piece := PSeq (b : bool) (ty : Z) | PSpecial (id : str) (ty : Z).
(** template.go:152-161, 211-214: the ids and tokens of each special token. *)
Definition special_tokens := list (str * (list Z * list str)).

(** template.go:329-350. *)
Fixpoint count_added (tpl : list piece) (toks : special_tokens) : Z :=
  match tpl with
  | [] => 0
  | PSeq _ _ :: tpl' => count_added tpl' toks
  | PSpecial id _ :: tpl' =>
      match aget str_eqb id toks with Some t => zlen (fst t) | None => 0 end + count_added tpl' toks
  end.

Definition set_type_ids (e : Encoding) (ty : list Z) : Encoding :=
  mkEnc (ids e) ty (tokens e) (offsets e) (special e) (attention e) (words e) (overflowing e) (seq_ranges e).

(** tokenizer.go:95-114: one turn of the loop of PrepareEncodings. *)
Definition prepare (i : Z) (e : Encoding) : res Encoding :=
  do e1 <- set_sequence_ids e i;
  do over <- mapR (fun o => set_sequence_ids o i) (overflowing e1);
  let e2 := set_overflowing e1 over in
  Ok (if 0 <? enc_len e2 then set_type_ids e2 (repeat i (length (ids e2))) else e2).

(** tokenizer.go:90-117. *)
Definition prepare_encodings (e : Encoding) (pair : option Encoding) : res (list Encoding) :=
  do e1 <- prepare 0 e;
  match pair with
  | None => Ok [e1]
  | Some p => do p1 <- prepare 1 p; Ok [e1; p1]
  end.

(** tokenizer.go:132-150; [None] is nil. *)
Definition merge_encodings (l : list Encoding) : res (option Encoding) :=
  match l with
  | [] => Ok None
  | e :: l' => do r <- foldR (fun acc p => merge_with false acc p) l' e; Ok (Some r)
  end.

(** template.go:508-548: one piece.  The encoding of a special token has no words. *)
Definition apply_piece (toks : special_tokens) (encs : list Encoding) (add : bool) (p : piece) : res (list Encoding) :=
  match p with
  | PSeq b ty =>
      do e <- zindex encs (if b then 1 else 0);
      do e' <- set_sequence_ids (set_type_ids e (repeat ty (length (ids e)))) (if b then 1 else 0);
      Ok [e']
  | PSpecial id ty =>
      if add then
        match aget str_eqb id toks with
        | None => Panic
        | Some (i, t) =>
            Ok [new_encoding i (repeat ty (length i)) t (repeat (0, 0) (length i)) (repeat 1 (length i)) (repeat 1 (length i)) []]
        end
      else Ok []
  end.

(** template.go:504-553. *)
Definition apply_template (tpl : list piece) (toks : special_tokens) (encs : list Encoding) (add : bool) : res (list Encoding) :=
  do l <- mapR (apply_piece toks encs add) tpl; Ok (concat l).

(** template.go:568-583. *)
Definition template_process (single both : list piece) (toks : special_tokens) (e : Encoding) (pair : option Encoding) (add : bool)
  : res (option Encoding) :=
  do encs <- prepare_encodings e pair;
  do l <- apply_template (match pair with None => single | Some _ => both end) toks encs add;
  merge_encodings l.

(** ** Byte level *)

(** bytelevel.go:267-298.  The last loop (289-291) sets ranges that are already set. *)
Definition bytelevel_process (prefix trim : bool) (e : Encoding) (pair : option Encoding) : res Encoding :=
  do encs <- prepare_encodings e pair;
  do encs <- (if trim then mapR (process_all_offsets prefix) encs else Ok encs);
  match encs with
  | [] => Panic
  | e :: l => foldR (fun acc p => merge_with false acc p) l e
  end.

(** ** All post-processors *)
Inductive processor :=
| PBert (cls sep : post_token)
| PRoberta (cls sep : post_token) (trim prefix : bool)
| PTemplate (single both : list piece) (toks : special_tokens)
| PByteLevel (prefix trim : bool)
| PSequence (l : list processor).

(** bert.go:27-33, roberta.go:50-56, template.go:560-566, bytelevel.go:263-265,
    sequence.go:17-24. *)
Fixpoint added_tokens (p : processor) (isPair : bool) : Z :=
  match p with
  | PBert _ _ => if isPair then 3 else 2
  | PRoberta _ _ _ _ => if isPair then 4 else 2
  | PTemplate single both toks => if isPair then count_added both toks else count_added single toks
  | PByteLevel _ _ => 0
  | PSequence l => fold_right (fun q n => added_tokens q isPair + n) 0 l
  end.

(** The Process methods; sequence.go:26-34 hands the pair to every processor.  A nil
    encoding handed to the next processor counts as a panic (BertProcessing without special
    tokens and pair would only hand it on). *)
Fixpoint process (p : processor) (e : Encoding) (pair : option Encoding) (add : bool) : res (option Encoding) :=
  match p with
  | PBert cls sep => do r <- bert_process cls sep e pair add; Ok (Some r)
  | PRoberta cls sep trim prefix => roberta_process cls sep trim prefix e pair add
  | PTemplate single both toks => template_process single both toks e pair add
  | PByteLevel prefix trim => do r <- bytelevel_process prefix trim e pair; Ok (Some r)
  | PSequence l =>
      (fix go (l : list processor) (e : option Encoding) : res (option Encoding) :=
         match l with
         | [] => Ok e
         | q :: l' =>
             match e with
             | None => Panic
             | Some e => do r <- process q e pair add; go l' r
             end
         end) l (Some e)
  end.

(** ** PostProcess *)

(** util.go:83-88, 20-30. *)
Record trunc_params := Trunc { tr_max : Z; tr_strategy : trunc_strategy; tr_stride : Z }.
Record pad_params := Padding { pd_strategy : pad_strategy; pd_dir : direction; pd_id : Z; pd_type : Z; pd_token : str }.

(** tokenizer.go:588-637.  A nil final encoding is dereferenced only when padding is set;
    otherwise nil is returned. *)
Definition post_truncate (proc : option processor) (trunc : option trunc_params) (e : Encoding) (pair : option Encoding) (add : bool)
  : res (Encoding * option Encoding) :=
  match trunc with
  | None => Ok (e, pair)
  | Some t =>
      let n := match proc with None => 0 | Some p => added_tokens p (match pair with Some _ => true | None => false end) end in
      truncate_encodings e pair (tr_strategy t) (if (add && (0 <? n))%bool then tr_max t - n else tr_max t) (tr_stride t)
  end.
Definition post_process (proc : option processor) (trunc : option trunc_params) (padding : option pad_params)
  (e : Encoding) (pair : option Encoding) (add : bool) : res (option Encoding) :=
  do ep <- post_truncate proc trunc e pair add;
  do r <- match proc with
          | None => do r <- default_process (fst ep) (snd ep); Ok (Some r)
          | Some p => process p (fst ep) (snd ep) add
          end;
  match padding with
  | None => Ok r
  | Some d =>
      match r with
      | None => Panic
      | Some r =>
          do l <- pad_encodings [r] (pd_strategy d) (pd_dir d) (pd_id d) (pd_type d) (pd_token d);
          match l with
          | [x] => Ok (Some x)
          | _ => Panic
          end
      end
  end.
