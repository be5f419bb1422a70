(** Vocabulary for the statements about post-processing. *)
From Verif Require Import Base Utf8Model EncodingModel EncodingSpec ProcessorModel.
Open Scope Z_scope.

(** The tokens of [e] with special tokens before and after: those have type [ty], word -1,
    offsets (0,0) and special mask 1; nothing is masked out. *)
Definition around (before after : list post_token) (ty : Z) (e : Encoding) : Encoding :=
  mkEnc (map pt_id before ++ ids e ++ map pt_id after)
        (map (fun _ => ty) before ++ type_ids e ++ map (fun _ => ty) after)
        (map pt_value before ++ tokens e ++ map pt_value after)
        (map (fun _ => (0, 0)) before ++ offsets e ++ map (fun _ => (0, 0)) after)
        (map (fun _ => 1) before ++ map (fun _ => 0) (ids e) ++ map (fun _ => 1) after)
        (map (fun _ => 1) before ++ map (fun _ => 1) (ids e) ++ map (fun _ => 1) after)
        (map (fun _ => -1) before ++ words e ++ map (fun _ => -1) after) [] None.
(** ... and the same around every overflowing encoding. *)
Definition framed (before after : list post_token) (ty : Z) (e : Encoding) : Encoding :=
  set_overflowing (around before after ty e) (map (around before after ty) (overflowing e)).

(** The encoding and its overflowing encodings have parallel lists. *)
Definition two_parallel (e : Encoding) : Prop := parallel e /\ Forall parallel (overflowing e).

(** The number of tokens of an optional pair. *)
Definition pair_len (pair : option Encoding) : Z := match pair with Some p => enc_len p | None => 0 end.
Definition is_pair (pair : option Encoding) : bool := match pair with Some _ => true | None => false end.

(** ** Offsets without the spaces *)

(** A token of [a] spaces (each written "Ġ"), some text that neither starts nor ends with
    one, and [b] spaces; a token of spaces only has them counted on both sides. *)
Definition spaced (tok : str) (a b : nat) : Prop :=
  (exists mid x y, runes tok = repeat 288%N a ++ mid ++ repeat 288%N b /\
     hd_error mid = Some x /\ hd_error (rev mid) = Some y /\ x <> 288%N /\ y <> 288%N) \/
  (runes tok = repeat 288%N a /\ b = a).
(** Its offsets: moved past the leading spaces (a single one before the first token belongs
    to the prefix and stays), and back before the trailing ones, never beyond each other. *)
Definition without_spaces (prefix first : bool) (a b : nat) (o : Z * Z) : Z * Z :=
  let skip := if (first && prefix && (a =? 1)%nat)%bool then 0 else Z.of_nat a in
  let s := Z.min (fst o + skip) (snd o) in
  (s, Z.max s (snd o - Z.of_nat b)).

(** The same tokens with the spaces trimmed off the offsets. *)
Definition trimmed (prefix : bool) (e e' : Encoding) : Prop :=
  ids e' = ids e /\ type_ids e' = type_ids e /\ tokens e' = tokens e /\ special e' = special e /\
  attention e' = attention e /\ words e' = words e /\ length (offsets e') = length (tokens e) /\
  forall i tok o a b, nth_error (tokens e) i = Some tok -> nth_error (offsets e) i = Some o ->
    spaced tok a b -> 0 <= fst o <= snd o -> Z.of_nat b <= snd o ->
    nth_error (offsets e') i = Some (without_spaces prefix (i =? 0)%nat a b o).
(** ... in the encoding and its overflowing ones. *)
Definition all_trimmed (prefix : bool) (e e' : Encoding) : Prop :=
  trimmed prefix e e' /\ Forall2 (trimmed prefix) (overflowing e) (overflowing e').

(** ** Templates *)

(** The contribution of one piece. *)
Definition special_piece (i : list Z) (t : list str) (ty : Z) : Encoding :=
  mkEnc i (map (fun _ => ty) i) t (map (fun _ => (0, 0)) i) (map (fun _ => 1) i) (map (fun _ => 1) i) [] [] None.
Definition retyped (ty : Z) (e : Encoding) : Encoding :=
  mkEnc (ids e) (map (fun _ => ty) (ids e)) (tokens e) (offsets e) (special e) (attention e) (words e) (overflowing e) None.
Definition piece_parts (toks : special_tokens) (e : Encoding) (pair : option Encoding) (add : bool) (p : piece) : list Encoding :=
  match p with
  | PSeq false ty => [retyped ty e]
  | PSeq true ty => match pair with Some q => [retyped ty q] | None => [] end
  | PSpecial id ty =>
      if add then match aget str_eqb id toks with Some t => [special_piece (fst t) (snd t) ty] | None => [] end else []
  end.
(** Everything the template refers to exists. *)
Definition available (toks : special_tokens) (pair : option Encoding) (add : bool) (p : piece) : Prop :=
  match p with
  | PSeq b _ => b = true -> pair <> None
  | PSpecial id _ => add = true -> aget str_eqb id toks <> None
  end.

(** Concatenation of all attribute lists. *)
Definition concat_enc (l : list Encoding) : Encoding :=
  mkEnc (flat_map ids l) (flat_map type_ids l) (flat_map tokens l) (flat_map offsets l) (flat_map special l)
        (flat_map attention l) (flat_map words l) [] None.
(** ... and the overflowing encodings: all combinations in the order of [over_spec]. *)
Definition joined (e : Encoding) (l : list Encoding) : Encoding :=
  fold_left (fun acc p => set_overflowing (enc_append acc p 0) (over_spec false acc p)) l e.

(** An encoding followed by an optional second one. *)
Definition with_pair (e : Encoding) (pair : option Encoding) : Encoding :=
  match pair with None => e | Some q => joined e [q] end.

(** Encodings as truncation and encoding leave them: empty ones have a range map, ranges
    are non-empty. *)
Definition rangeable (e : Encoding) : Prop :=
  (0 < enc_len e \/ seq_ranges e <> None) /\ ranges_ok e /\
  Forall (fun o => (0 < enc_len o \/ seq_ranges o <> None) /\ ranges_ok o /\ Forall deep_ranges (overflowing o)) (overflowing e).

(** Two encodings with the same tokens, also in the overflowing parts. *)
Definition same (x y : Encoding) : Prop := flat x = flat y /\ map flat (overflowing x) = map flat (overflowing y).

(** How often a template uses the sequence. *)
Definition uses (b : bool) (tpl : list piece) : Z :=
  zlen (filter (fun p => match p with PSeq b' _ => Bool.eqb b b' | _ => false end) tpl).

(** ** Sequences: processors that put each input once into the result and add as many
    tokens as they say. *)
Definition adds_exactly (p : processor) : Prop :=
  forall e pair add r, process p e pair add = Ok (Some r) ->
    enc_len r = enc_len e + pair_len pair + (if add then added_tokens p (is_pair pair) else 0).

(** ** The limit *)

(** The number of tokens the configured post-processor announces. *)
Definition count_of (proc : option processor) (isPair add : bool) : Z :=
  match proc with Some p => if add then added_tokens p isPair else 0 | None => 0 end.
Definition counts (proc : option processor) : Prop := match proc with Some p => adds_exactly p | None => True end.

(** The template in use. *)
Definition template_of (single both : list piece) (pair : option Encoding) : list piece := match pair with None => single | Some _ => both end.

(** No sequence recorded yet. *)
Definition fresh (e : Encoding) : Prop := seq_ranges e = None \/ seq_ranges e = Some [].
