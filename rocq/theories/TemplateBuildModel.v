(** Model of the textual templates, the builder and Validate of /repo/processor/template.go.
    Pointer sharing between a builder and the processor it was made from (template.go:495-501)
    is not modelled: the state of both is [tstate]. *)
From Verif Require Import Base BpeSaveModel EncodingModel ProcessorModel.
Open Scope Z_scope.

Definition DOLLAR : N := 36%N.
Definition COLON : N := 58%N.
Definition SPACE : N := 32%N.

(** strconv.Atoi, base 10, 64 bit: used at template.go:45 and 122. *)
Definition digit (c : N) : option Z := if ((48 <=? c) && (c <=? 57))%N then Some (Z.of_N c - 48) else None.
Fixpoint digits (acc : Z) (s : str) : option Z :=
  match s with
  | [] => Some acc
  | c :: s' => match digit c with Some d => digits (10 * acc + d) s' | None => None end
  end.
Definition in_int64 (z : Z) : bool := (- 2 ^ 63 <=? z) && (z <? 2 ^ 63).
Definition atoi (s : str) : option Z :=
  let '(neg, ds) := match s with
                    | c :: ds => if (c =? 45)%N then (true, ds) else if (c =? 43)%N then (false, ds) else (false, s)
                    | [] => (false, s)
                    end in
  match ds with
  | [] => None
  | _ => match digits 0 ds with
         | Some z => let z' := if neg : bool then - z else z in if in_int64 z' then Some z' else None
         | None => None
         end
  end.

(** template.go:39-80. *)
Definition extract_id (s : str) : res piece :=
  match s with
  | c :: rest =>
      if (c =? DOLLAR)%N then
        if (str_eqb rest [] || str_eqb rest [65%N] || str_eqb rest [97%N])%bool then Ok (PSeq false 0)
        else if (str_eqb rest [66%N] || str_eqb rest [98%N])%bool then Ok (PSeq true 0)
        else match atoi rest with
             | Some num => Ok (PSeq false num)
             | None => Err
             end
      else Ok (PSpecial s 0)
  | [] => Ok (PSpecial s 0)
  end.

(** template.go:104-110. *)
Definition with_type_id (v : Z) (p : piece) : piece :=
  match p with PSeq b _ => PSeq b v | PSpecial id _ => PSpecial id v end.

(** template.go:112-148. *)
Definition new_piece (s : str) : res piece :=
  match split_on COLON s with
  | [h; t] =>
      match atoi t with
      | None => Err
      | Some ty => do p <- extract_id h; Ok (with_type_id ty p)
      end
  | [h] => extract_id h
  | _ => Err
  end.

(** template.go:184-195. *)
Definition template_from_multi (parts : list str) : res (list piece) := mapR new_piece parts.
(** template.go:178-182. *)
Definition template_from_one (s : str) : res (list piece) := template_from_multi (split_on SPACE s).

(** template.go:197-207: the argument of NewTemplate; any other type is an error. *)
Inductive text := TOne (s : str) | TMulti (parts : list str) | TOther.
Definition new_template (v : text) : res (list piece) :=
  match v with TOne s => template_from_one s | TMulti parts => template_from_multi parts | TOther => Err end.

(** template.go:251-264, 173-175.  The map of NewTokens; see [new_keys] for the order. *)
Definition new_tokens (l : list (str * Z)) : special_tokens :=
  fold_left (fun m t => aset str_eqb (fst t) ([snd t], [fst t]) m) l [].
Definition new_keys (l : list (str * Z)) : list str := map fst l.

(** template.go:295-301, with the ordered keys of its Tokens (211-214). *)
Record tstate := TState {
  ts_single : list piece; ts_pair : list piece;
  ts_added_single : Z; ts_added_pair : Z;
  ts_toks : special_tokens; ts_keys : list str }.

(** template.go:364-367. *)
Definition update_added (st : tstate) : tstate :=
  TState (ts_single st) (ts_pair st) (count_added (ts_single st) (ts_toks st)) (count_added (ts_pair st) (ts_toks st))
         (ts_toks st) (ts_keys st).

(** template.go:369-392: the calls on a builder.  A text that is no template panics. *)
Inductive build_op := BSingle (v : text) | BPair (v : text) | BTokens (l : list (str * Z)).
Definition build_step (st : tstate) (o : build_op) : res tstate :=
  match o with
  | BSingle v =>
      match new_template v with
      | Ok t => Ok (update_added (TState t (ts_pair st) (ts_added_single st) (ts_added_pair st) (ts_toks st) (ts_keys st)))
      | _ => Panic
      end
  | BPair v =>
      match new_template v with
      | Ok t => Ok (update_added (TState (ts_single st) t (ts_added_single st) (ts_added_pair st) (ts_toks st) (ts_keys st)))
      | _ => Panic
      end
  | BTokens l => Ok (update_added (TState (ts_single st) (ts_pair st) (ts_added_single st) (ts_added_pair st) (new_tokens l) (new_keys l)))
  end.
Definition build (ops : list build_op) (st : tstate) : res tstate := foldR build_step ops st.

(** template.go:474-493.  The texts "$0" and "$1" are constants that parse. *)
Definition default_template : tstate := TState [PSeq false 0] [PSeq false 1] 0 0 [] [].

(** template.go:394-403. *)
Definition default_added (st : tstate) (single : bool) : Z :=
  count_added (if single then ts_single st else ts_pair st) (ts_toks st).

(** template.go:560-566. *)
Definition ts_added (st : tstate) (isPair : bool) : Z := if isPair then ts_added_pair st else ts_added_single st.

(** template.go:412-420: the type assertion fails on a special token. *)
Fixpoint pair_scan (l : list piece) (hasA hasB : bool) : res (bool * bool) :=
  match l with
  | [] => Ok (hasA, hasB)
  | PSeq false _ :: l' => pair_scan l' true hasB
  | PSeq true _ :: l' => pair_scan l' hasA true
  | PSpecial _ _ :: _ => Panic
  end.

(** template.go:352-358: the type names Validate compares with, as far as they matter. *)
Inductive type_name := N_SequencePiece | N_SpecialTokenPiece | N_SpecialToken.
Definition get_type (p : piece) : type_name :=
  match p with PSeq _ _ => N_SequencePiece | PSpecial _ _ => N_SpecialTokenPiece end.

(** template.go:429-443.  Element 0 of no keys panics. *)
Definition check_token (st : tstate) (id : str) : res (list str) :=
  match ts_keys st with
  | [] => Panic
  | k :: _ =>
      match aget str_eqb k (ts_toks st) with
      | None => Ok []
      | Some t => if existsb (str_eqb id) (snd t) then Ok [id] else Ok []
      end
  end.

(** template.go:445-458.  What [append] writes behind the single template is not visible to
    anyone. *)
Definition missing_tokens (st : tstate) : res (list str) :=
  do l <- mapR (fun p => match get_type p, p with
                         | N_SpecialToken, PSpecial id _ => check_token st id
                         | _, _ => Ok []
                         end) (ts_single st ++ ts_pair st);
  Ok (concat l).

(** template.go:405-472. *)
Definition validate (st : tstate) : res unit :=
  do ab <- pair_scan (ts_pair st) false false;
  if (fst ab && snd ab)%bool then
    do missing <- missing_tokens st;
    match missing with [] => Ok tt | _ => Err end
  else Err.
