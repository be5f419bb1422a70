(** Model of the decoders: /repo/decoder/, the decoding halves of
    /repo/pretokenizer/bytelevel.go, /repo/pretokenizer/metaspace.go and
    /repo/normalizer/replace.go, and /repo/tokenizer.go:515-530. *)
From Verif Require Import Base Utf8Model PatternModel BpeModel BpeSaveModel AddedVocabModel.
Open Scope Z_scope.

(** strings.Split(s, ""): the characters of [s] as strings; an invalid byte is a piece of
    its own (Go 1.23, strings.explode). *)
Fixpoint cut_widths (ws : list nat) (s : str) : list str :=
  match ws with
  | [] => []
  | w :: ws' => firstn w s :: cut_widths ws' (skipn w s)
  end.
Definition explode (s : str) : list str := cut_widths (map snd (runes_w s)) s.

(** strings.ReplaceAll(s, old, new) for non-empty [old]; [fuel] >= length s suffices. *)
Fixpoint replace_f (fuel : nat) (old new s : str) : str :=
  match fuel with
  | O => s
  | S fuel' =>
      match s with
      | [] => []
      | c :: s' =>
          if starts_with old s then new ++ replace_f fuel' old new (skipn (length old) s)
          else c :: replace_f fuel' old new s'
      end
  end.
(** An empty [old] matches before every character and at the end. *)
Definition replace_all (s old new : str) : str :=
  match old with
  | [] => concat (map (fun c => new ++ c) (explode s)) ++ new
  | _ => replace_f (length s) old new s
  end.

(** decoder/bpe.go:44-57. *)
Fixpoint bpe_chain (suffix : str) (toks : list str) : list str :=
  match toks with
  | [] => []
  | t :: toks' => replace_all t suffix (match toks' with [] => [] | _ => [SP] end) :: bpe_chain suffix toks'
  end.

(** encoding/hex: the value of a hexadecimal digit. *)
Definition hex_value (c : N) : option N :=
  if ((48 <=? c) && (c <=? 57))%N then Some (c - 48)%N
  else if ((97 <=? c) && (c <=? 102))%N then Some (c - 87)%N
  else if ((65 <=? c) && (c <=? 70))%N then Some (c - 55)%N
  else None.

(** decoder/byte-fallback.go:38-48.  The byte of a token: [Ok None] for an ordinary token,
    a panic for "<0x..>" with two bytes that are no hexadecimal digits. *)
Definition token_byte (t : str) : res (option N) :=
  match t with
  | [60; 48; 120; a; b; 62]%N =>
      match hex_value a, hex_value b with
      | Some x, Some y => Ok (Some (16 * x + y)%N)
      | _, _ => Panic
      end
  | _ => Ok None
  end.

(** utf8.Valid. *)
Definition utf8_valid (s : str) : bool := str_eqb (encode (runes s)) s.

(** 53-62 and 69-78.  The tokens made from the collected bytes. *)
Definition flush_bytes (bs : str) : list str :=
  match bs with
  | [] => []
  | _ => if utf8_valid bs then [bs] else repeat (encode_rune rune_error) (length bs)
  end.

(** 32-81. *)
Fixpoint bf_chain (bs : str) (toks : list str) : res (list str) :=
  match toks with
  | [] => Ok (flush_bytes bs)
  | t :: toks' =>
      do o <- token_byte t;
      match o with
      | Some b => bf_chain (bs ++ [b]) toks'
      | None => do rest <- bf_chain [] toks'; Ok (flush_bytes bs ++ t :: rest)
      end
  end.

(** decoder/ctc.go:43-56. *)
Fixpoint dedup (previous : str) (toks : list str) : list str :=
  match toks with
  | [] => []
  | t :: toks' => if str_eqb t previous then dedup previous toks' else t :: dedup t toks'
  end.

(** decoder/ctc.go:68-83 and decoder/wordpiece.go:64-79.  The eleven replacements, in order:
    " .", " ?", " !", " ,", " ' ", " n't", " 'm", " do not", " 's", " 've", " 're". *)
Definition cleanup_rules : list (str * str) :=
  [([32; 46], [46]); ([32; 63], [63]); ([32; 33], [33]); ([32; 44], [44]); ([32; 39; 32], [39]);
   ([32; 110; 39; 116], [110; 39; 116]); ([32; 39; 109], [39; 109]);
   ([32; 100; 111; 32; 110; 111; 116], [32; 100; 111; 110; 39; 116]);
   ([32; 39; 115], [39; 115]); ([32; 39; 118; 101], [39; 118; 101]); ([32; 39; 114; 101], [39; 114; 101])]%N.
Definition cleanup (t : str) : str := fold_left (fun o r => replace_all o (fst r) (snd r)) cleanup_rules t.

(** decoder/ctc.go:85-102. *)
Definition ctc_token (pad delim : str) (clean : bool) (t : str) : str :=
  let r := replace_all t pad [] in
  if clean then replace_all (cleanup r) delim [SP] else r.
Definition ctc_chain (pad delim : str) (clean : bool) (toks : list str) : list str :=
  filter (fun t => match t with [] => false | _ => true end) (map (ctc_token pad delim clean) (dedup [] toks)).

(** decoder/wordpiece.go:81-101.  strings.Replace(token, prefix, "", 1) removes the prefix. *)
Definition wpd_chain (prefix : str) (clean : bool) (toks : list str) : list str :=
  match toks with
  | [] => []
  | t0 :: rest =>
      let fin t := if clean then cleanup t else t in
      fin t0 :: map (fun t => fin (if starts_with prefix t then skipn (length prefix) t else SP :: t)) rest
  end.

(** decoder/strip.go:38-47.  startCut; [n] is d.Start - i (at least 0). *)
Fixpoint strip_start (content : str) (n i : nat) (chars : list str) : res nat :=
  match n with
  | O => Ok i
  | S n' =>
      match nth_error chars i with
      | None => Panic
      | Some c => if str_eqb c content then strip_start content n' (S i) chars else Ok i
      end
  end.
(** 49-58.  The number of characters cut at the end (len(chars) - stopCut). *)
Definition strip_stop (content : str) (n : nat) (chars : list str) : res nat :=
  strip_start content n 0 (rev chars).
(** 32-65. *)
Definition strip_token (content : str) (start stop : Z) (t : str) : res str :=
  let chars := explode t in
  do a <- strip_start content (Z.to_nat start) 0 chars;
  do b <- strip_stop content (Z.to_nat stop) chars;
  do l <- zslice chars (Z.of_nat a) (zlen chars - Z.of_nat b);
  Ok (concat l).

(** ** The byte-level alphabet *)

(** pretokenizer/bytelevel.go:77-132.  GenerateBytesChar: one loop "for i := first; i <= last".
    The state is the counter [n] and the map; encodeUTF8 (33-71) is [encode_rune]. *)
Definition gen_loop (first last : N) (st : N * list (N * str)) : N * list (N * str) :=
  fold_left (fun (st : N * list (N * str)) i =>
               ((fst st + 1)%N, aset N.eqb (fst st mod 256)%N (encode_rune i) (snd st)))
            (map N.of_nat (seq (N.to_nat first) (N.to_nat (last + 1 - first)))) st.
Definition generate_bytes_char : list (N * str) :=
  let st := gen_loop 161 172 (gen_loop 289 322 (gen_loop 33 126 (gen_loop 256 288 (0%N, [])))) in
  let st := if (fst st =? 173)%N then gen_loop 323 323 st else st in
  snd (gen_loop 174 255 st).
Definition bytes_char : list (N * str) := Eval vm_compute in generate_bytes_char.
(** bytelevel.go:24-31.  The inverse map (no two bytes share a character, so the
    iteration order is irrelevant). *)
Definition char_bytes : list (str * N) := map (fun p => (snd p, fst p)) bytes_char.

(** Map lookups with Go's zero values. *)
Definition byte_char (b : N) : str := match aget N.eqb b bytes_char with Some c => c | None => [] end.
Definition char_byte (c : str) : N := match aget str_eqb c char_bytes with Some b => b | None => 0%N end.

(** bytelevel.go:231-261. *)
Definition bl_decode (s : str) : str := map char_byte (explode s).
Definition bl_chain (toks : list str) : list str := map bl_decode toks.
(** The rendering of a byte string (bytelevel.go:204-216 for one character). *)
Definition bl_render (s : str) : str := concat (map byte_char s).

(** ** Metaspace *)

(** pretokenizer/metaspace.go:123-139. *)
Definition ms_token (rep : str) (drop : bool) (t : str) : str :=
  concat (map (fun c => if str_eqb c rep then (if drop then [] else [SP]) else c) (explode t)).
Definition ms_chain (rep : str) (add_prefix : bool) (toks : list str) : list str :=
  match toks with
  | [] => []
  | t :: toks' => ms_token rep add_prefix t :: map (ms_token rep false) toks'
  end.

(** ** Replace *)

(** normalizer/replace.go:49-68. *)
Definition replace_parts (content t : str) (ms : list offsets_match) : res str :=
  do ps <- mapR (fun m : offsets_match =>
             if snd m then Ok content else zslice t (fst (fst m)) (snd (fst m))) ms;
  Ok (concat ps).
Definition replace_token (p : pattern) (content t : str) : res str :=
  do ms <- PatternModel.find_matches p t; replace_parts content t ms.

(** ** All decoders *)

Inductive decoder :=
| DBpe (suffix : str)
| DByteFallback
| DCtc (pad delim : str) (clean : bool)
| DFuse
| DWordPiece (prefix : str) (clean : bool)
| DStrip (content : str) (start stop : Z)
| DByteLevel
| DMetaspace (rep : str) (add_prefix : bool)
| DReplace (p : pattern) (content : str)
| DSequence (ds : list decoder).

(** The DecodeChain methods; Fuse is decoder/fuse.go:27-31, Sequence
    decoder/sequence.go:29-42. *)
Fixpoint decode_chain (d : decoder) (toks : list str) : res (list str) :=
  match d with
  | DBpe suffix => Ok (bpe_chain suffix toks)
  | DByteFallback => bf_chain [] toks
  | DCtc pad delim clean => Ok (ctc_chain pad delim clean toks)
  | DFuse => Ok [concat toks]
  | DWordPiece prefix clean => Ok (wpd_chain prefix clean toks)
  | DStrip content start stop => mapR (strip_token content start stop) toks
  | DByteLevel => Ok (bl_chain toks)
  | DMetaspace rep add_prefix => Ok (ms_chain rep add_prefix toks)
  | DReplace p content => mapR (replace_token p content) toks
  | DSequence ds =>
      (fix go (ds : list decoder) (toks : list str) : res (list str) :=
         match ds with
         | [] => Ok toks
         | d :: ds' => do toks' <- decode_chain d toks; go ds' toks'
         end) ds toks
  end.

(** How a decoder object was made: with New..., or with DefaultBpeDecoder (bpe.go:31-33),
    DefaultWordpieceDecoder (wordpiece.go:35-40) or DefaultCTC (ctc.go:32-40), which leave
    the embedded DecoderBase, or its Decoder field, nil. *)
Inductive made := ByNew | ByDefault.
(** decoder/decoder.go:13-15, bytelevel.go:231-244, metaspace.go:145-149, replace.go:70-72. *)
Definition decode (m : made) (d : decoder) (toks : list str) : res str :=
  match d with
  | DByteLevel => Ok (bl_decode (concat toks))
  | DMetaspace _ _ | DReplace _ _ => do l <- decode_chain d toks; Ok (concat l)
  | _ => match m with
         | ByNew => do l <- decode_chain d toks; Ok (concat l)
         | ByDefault => Panic
         end
  end.

(** ** Decoding ids *)

(** strings.Join(l, " "). *)
Fixpoint join_sp (l : list str) : str :=
  match l with
  | [] => []
  | [t] => t
  | t :: l' => t ++ SP :: join_sp l'
  end.

(** tokenizer.go:516-523. *)
Fixpoint tokens_of_ids (m : base_model) (av : added_vocab) (skip : bool) (ids : list Z) : list str :=
  match ids with
  | [] => []
  | i :: ids' =>
      match av_id_to_token m av i with
      | Some t => if negb skip || negb (is_special av t) then t :: tokens_of_ids m av skip ids'
                  else tokens_of_ids m av skip ids'
      | None => tokens_of_ids m av skip ids'
      end
  end.

(** tokenizer.go:515-530.  [dec] is the tokenizer's decoder, any function. *)
Definition decode_ids (m : base_model) (av : added_vocab) (dec : option (list str -> res str)) (ids : list Z) (skip : bool)
  : res str :=
  let toks := tokens_of_ids m av skip ids in
  match dec with
  | Some f => f toks
  | None => Ok (join_sp toks)
  end.
