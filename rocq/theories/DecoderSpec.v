(** What the decoders should do, stated without their code. *)
From Verif Require Import Base Utf8Model PatternModel AddedVocabModel DecoderModel.
Open Scope Z_scope.

(** ** Strings *)

Definition occurs (old s : str) : Prop := exists a b, s = a ++ old ++ b.

(** [replaced old new s s']: [s'] is [s] with every occurrence of [old], searched from left
    to right without overlaps, replaced by [new]. *)
Inductive replaced (old new : str) : str -> str -> Prop :=
| rep_none s : ~ occurs old s -> replaced old new s s
| rep_some a b b' :
    (forall a1 b1, a ++ old ++ b = a1 ++ old ++ b1 -> (length a <= length a1)%nat) ->
    replaced old new b b' ->
    replaced old new (a ++ old ++ b) (a ++ new ++ b').

(** Several replacements, one after the other. *)
Inductive replaced_all : list (str * str) -> str -> str -> Prop :=
| ra_nil s : replaced_all [] s s
| ra_cons old new rules s1 s2 s3 :
    replaced old new s1 s2 -> replaced_all rules s2 s3 -> replaced_all ((old, new) :: rules) s1 s3.

(** " ." " ?" " !" " ," " ' " " n't" " 'm" " do not" " 's" " 've" " 're": what the cleanup of
    tokenization artifacts replaces. *)
Definition artifacts : list (str * str) :=
  [([32; 46], [46]); ([32; 63], [63]); ([32; 33], [33]); ([32; 44], [44]); ([32; 39; 32], [39]);
   ([32; 110; 39; 116], [110; 39; 116]); ([32; 39; 109], [39; 109]);
   ([32; 100; 111; 32; 110; 111; 116], [32; 100; 111; 110; 39; 116]);
   ([32; 39; 115], [39; 115]); ([32; 39; 118; 101], [39; 118; 101]); ([32; 39; 114; 101], [39; 114; 101])]%N.

(** The characters of a string, as strings (an invalid byte counts as one). *)
Inductive characters : str -> list str -> Prop :=
| ch_nil : characters [] []
| ch_cons s l : s <> [] -> characters (skipn (snd (decode_rune s)) s) l ->
    characters s (firstn (snd (decode_rune s)) s :: l).

(** ** The byte-level alphabet *)

(** The characters below 324 that cannot be seen: 0-32, 127-160 and 173. *)
Definition invisible (r : N) : Prop := (r <= 32 \/ 127 <= r <= 160 \/ r = 173)%N.

(** ** Byte-fallback tokens *)

(** [c] is a hexadecimal digit of value [v]. *)
Definition hex_digit (c v : N) : Prop :=
  nth_error [48; 49; 50; 51; 52; 53; 54; 55; 56; 57; 97; 98; 99; 100; 101; 102]%N (N.to_nat v) = Some c \/
  nth_error [48; 49; 50; 51; 52; 53; 54; 55; 56; 57; 65; 66; 67; 68; 69; 70]%N (N.to_nat v) = Some c.

(** "<0xHL>". *)
Definition angle (h l : N) : str := [60; 48; 120; h; l; 62]%N.
Definition byte_token (t : str) (b : N) : Prop :=
  exists h l x y, t = angle h l /\ hex_digit h x /\ hex_digit l y /\ b = (16 * x + y)%N.

(** "<0x..>" around something that is no pair of hexadecimal digits. *)
Definition malformed (t : str) : Prop := (exists h l, t = angle h l) /\ forall b, ~ byte_token t b.

(** The meaning of a token list in which byte tokens stand for bytes. *)
Inductive byte_decoded : list str -> list str -> Prop :=
| bd_nil : byte_decoded [] []
| bd_other t ts out : (forall b, ~ byte_token t b) -> byte_decoded ts out -> byte_decoded (t :: ts) (t :: out)
| bd_valid run bs ts out :
    run <> [] -> Forall2 byte_token run bs ->
    (forall t ts' b, ts = t :: ts' -> ~ byte_token t b) ->
    valid_utf8 bs -> byte_decoded ts out -> byte_decoded (run ++ ts) (bs :: out)
| bd_invalid run bs ts out :
    run <> [] -> Forall2 byte_token run bs ->
    (forall t ts' b, ts = t :: ts' -> ~ byte_token t b) ->
    ~ valid_utf8 bs -> byte_decoded ts out ->
    byte_decoded (run ++ ts) (repeat (encode_rune 65533) (length bs) ++ out).

(** ** The other decoders *)

(** BPE: the end-of-word suffix becomes a space, and vanishes in the last token. *)
Inductive bpe_decoded (suffix : str) : list str -> list str -> Prop :=
| bpd_nil : bpe_decoded suffix [] []
| bpd_last t t' : replaced suffix [] t t' -> bpe_decoded suffix [t] [t']
| bpd_cons t t' ts out : ts <> [] -> replaced suffix [32%N] t t' -> bpe_decoded suffix ts out ->
    bpe_decoded suffix (t :: ts) (t' :: out).

Definition cleaned (clean : bool) (s s' : str) : Prop :=
  if clean then replaced_all artifacts s s' else s' = s.

(** WordPiece: a continuing piece loses its prefix, any other piece after the first gets a
    space in front. *)
Inductive wp_piece (prefix : str) : str -> str -> Prop :=
| wpp_cont t : wp_piece prefix (prefix ++ t) t
| wpp_word t : (forall t', t <> prefix ++ t') -> wp_piece prefix t (32%N :: t).
Inductive wp_decoded (prefix : str) (clean : bool) : list str -> list str -> Prop :=
| wpd_nil : wp_decoded prefix clean [] []
| wpd_cons t t' ts mids out :
    cleaned clean t t' -> Forall2 (wp_piece prefix) ts mids -> Forall2 (cleaned clean) mids out ->
    wp_decoded prefix clean (t :: ts) (t' :: out).

(** CTC: [runs toks l]: [l] has one token for each maximal run of equal tokens. *)
Inductive runs_of : list str -> list str -> Prop :=
| ro_nil : runs_of [] []
| ro_cons t n ts l : (forall ts', ts <> t :: ts') -> runs_of ts l ->
    runs_of (repeat t (S n) ++ ts) (t :: l).
(** One of them without padding and, when cleaning, with the artifacts removed and the word
    delimiter made a space. *)
Definition ctc_decoded (pad delim : str) (clean : bool) (t t' : str) : Prop :=
  exists mid, replaced pad [] t mid /\
    (if clean then exists mid', replaced_all artifacts mid mid' /\ replaced delim [32%N] mid' t' else t' = mid).

(** Strip: up to [start] leading and [stop] trailing characters equal to [content] go. *)
Definition stripped (content : str) (start stop : nat) (t t' : str) : Prop :=
  exists a m b, characters t (a ++ m ++ b) /\ t' = concat m /\
    Forall (eq content) a /\ Forall (eq content) b /\
    (length a <= start)%nat /\ (length b <= stop)%nat /\
    ((length a < start)%nat -> exists c r, m ++ b = c :: r /\ c <> content) /\
    ((length b < stop)%nat -> exists c r, a ++ m = r ++ [c] /\ c <> content).
(** Not enough other characters to stop at. *)
Definition too_short (content : str) (start stop : nat) (t : str) : Prop :=
  exists l, characters t l /\ Forall (eq content) l /\ (length l < start + stop)%nat.

(** Sequence: [ds] applied one after the other. *)
Inductive applied_in_order : list decoder -> list str -> list str -> Prop :=
| ao_nil toks : applied_in_order [] toks toks
| ao_cons d ds t1 t2 t3 : decode_chain d t1 = Ok t2 -> applied_in_order ds t2 t3 ->
    applied_in_order (d :: ds) t1 t3.

(** Decoders that have no way to fail. *)
Inductive harmless : decoder -> Prop :=
| h_bpe s : harmless (DBpe s)
| h_ctc p d c : harmless (DCtc p d c)
| h_fuse : harmless DFuse
| h_wp p c : harmless (DWordPiece p c)
| h_strip c a b : a <= 0 -> b <= 0 -> harmless (DStrip c a b)
| h_bl : harmless DByteLevel
| h_ms r b : harmless (DMetaspace r b)
| h_seq ds : (forall d, In d ds -> harmless d) -> harmless (DSequence ds).

(** ** Decoding ids *)

(** The tokens shown for [ids] when [id_to_token] is the vocabulary and [special] tells
    special tokens. *)
Inductive shown (id_to_token : Z -> option str) (special : str -> bool) (skip : bool) : list Z -> list str -> Prop :=
| sh_nil : shown id_to_token special skip [] []
| sh_unknown i ids toks : id_to_token i = None -> shown id_to_token special skip ids toks ->
    shown id_to_token special skip (i :: ids) toks
| sh_skipped i t ids toks : id_to_token i = Some t -> skip = true -> special t = true ->
    shown id_to_token special skip ids toks -> shown id_to_token special skip (i :: ids) toks
| sh_token i t ids toks : id_to_token i = Some t -> (skip = false \/ special t = false) ->
    shown id_to_token special skip ids toks -> shown id_to_token special skip (i :: ids) (t :: toks).

(** The tokens with one space between two neighbours. *)
Inductive spaced : list str -> str -> Prop :=
| sp_nil : spaced [] []
| sp_one t : spaced [t] t
| sp_more t u l s : spaced (u :: l) s -> spaced (t :: u :: l) (t ++ [32%N] ++ s).
