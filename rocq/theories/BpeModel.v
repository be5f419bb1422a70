(** Model of byte-pair-encoding tokenization: /repo/model/bpe/word.go,
    /repo/model/bpe/bpe.go. *)
From Verif Require Import Base SliceModel Utf8Model HeapModel.

(** word.go:70-75.  [Symbol]. *)
Record sym := Sym { s_c : Z; s_prev : Z; s_next : Z; s_len : Z }.

(** word.go:14-19.  [Merge]; the Time field is never set, hence equal in all
    entries, and is left out. *)
Record mrg := Mrg { m_pos : Z; m_rank : Z; m_new : Z }.

(** word.go:155-164.  The merge table map[Pair]PairVal: pair -> (rank, new id). *)
Definition merge_table := list ((Z * Z) * (Z * Z)).
Definition pair_eqb (a b : Z * Z) : bool := (fst a =? fst b)%Z && (snd a =? snd b)%Z.
Definition lookup_merge (t : merge_table) (c1 c2 : Z) : option (Z * Z) :=
  aget pair_eqb (c1, c2) t.

(** word.go:111-153.  [Word.Add]: append a symbol and relink the neighbours. *)
Definition word_add (w : list sym) (c len : Z) : list sym :=
  let n := zlen w in
  match w with
  | [] => [Sym c (-1) (-1) len]
  | _ =>
      map (fun p : nat * sym =>
             let '(i, s) := p in
             if i =? 0 then Sym (s_c s) (-1) 1 (s_len s)
             else if i =? length w - 1 then Sym (s_c s) (n - 2) n (s_len s)
             else s)
          (combine (seq 0 (length w)) w)
      ++ [Sym c (n - 1) (-1) len]
  end.

(** word.go:265-277.  The queue's comparator: by rank (the Time fields are
    always equal). *)
Definition mrg_gt (a b : mrg) : bool := (m_rank b <? m_rank a)%Z.

Definition qpush := heap_push mrg_gt.
Definition qpop := heap_pop mrg_gt.

(** word.go:284-309.  The initial queue: all adjacent pairs in the table, from
    left to right. *)
Definition init_queue (t : merge_table) (w : list sym) : list mrg :=
  fold_left
    (fun q (p : nat * (sym * sym)) =>
       let '(i, (a, b)) := p in
       match lookup_merge t (s_c a) (s_c b) with
       | Some (rank, new) => qpush q (Mrg (Z.of_nat i) rank new)
       | None => q
       end)
    (combine (seq 0 (length w)) (combine w (tl w)))
    [].

(** Go [w[i] = x] for an index in range; panics otherwise. *)
Definition zupd {A} (l : list A) (i : Z) (x : A) : res (list A) :=
  if ((0 <=? i) && (i <? zlen l))%Z then Ok (upd l (Z.to_nat i) x) else Panic.

(** word.go:351-364 and 367-381.  Push the pair formed by the symbols [a] (at
    position [pos]) and [b], if the table has it. *)
Definition push_pair (t : merge_table) (q : list mrg) (pos : Z) (a b : sym) : list mrg :=
  match lookup_merge t (s_c a) (s_c b) with
  | Some (rank, new) => qpush q (Mrg pos rank new)
  | None => q
  end.

(** word.go:329-382.  What is done with a queue entry that is not dropped. *)
Definition process_top (t : merge_table) (w : list sym) (q : list mrg) (top : mrg)
  : res (list sym * list mrg) :=
  do cur <- zindex w (m_pos top);
  if (0 <? s_len cur)%Z then
    if (s_next cur =? -1)%Z then Ok (w, q)
    else
      do rgt <- zindex w (s_next cur);
      match lookup_merge t (s_c cur) (s_c rgt) with
      | None => Ok (w, q)
      | Some (_, new) =>
          if (new =? m_new top)%Z then
            let current := Sym (m_new top) (s_prev cur) (s_next rgt) (s_len cur + s_len rgt) in
            do w1 <- zupd w (m_pos top) current;
            do w2 <- zupd w1 (s_next cur)
                       (Sym (s_c rgt) (s_prev rgt) (s_next rgt) 0);
            do w3 <- (if ((-1 <? s_next rgt) && (s_next rgt <? zlen w))%Z
                      then do nn <- zindex w2 (s_next rgt);
                           zupd w2 (s_next rgt) (Sym (s_c nn) (m_pos top) (s_next nn) (s_len nn))
                      else Ok w2);
            do q1 <- (if (0 <=? s_prev current)%Z
                      then do p <- zindex w3 (s_prev current);
                           Ok (push_pair t q (s_prev current) p current)
                      else Ok q);
            do q2 <- (if ((s_next current <? zlen w) && (-1 <? s_next current))%Z
                      then do n <- zindex w3 (s_next current);
                           Ok (push_pair t q1 (m_pos top) current n)
                      else Ok q1);
            Ok (w3, q2)
          else Ok (w, q)
      end
  else Ok (w, q).

(** word.go:312-385.  The main loop.  [drop k] says whether the k-th random draw
    is below the dropout; without dropout it is constantly false.  The [skip]
    slice is appended to and never cleared, as in the source.  The loop has no
    bound in the source; [fuel] is one here. *)
Fixpoint merge_loop (t : merge_table) (drop : nat -> bool) (fuel k : nat)
    (w : list sym) (q skip : list mrg) : res (list sym) :=
  match fuel with
  | O => NoFuel
  | S fuel' =>
      match qpop q with
      | None => Ok w
      | Some (top, q1) =>
          if drop k then merge_loop t drop fuel' (S k) w q1 (skip ++ [top])
          else
            do wq <- process_top t w (fold_left qpush skip q1) top;
            merge_loop t drop fuel' (S k) (fst wq) (snd wq) skip
      end
  end.

(** word.go:391-399.  [removeSymbols]. *)
Definition remove_symbols (w : list sym) : list sym :=
  filter (fun s => negb (s_len s =? 0)%Z) w.

(** word.go:257-389.  [MergeAll] run for at most [fuel] iterations. *)
Definition merge_all (t : merge_table) (drop : nat -> bool) (fuel : nat) (w : list sym)
  : res (list sym) :=
  do w' <- merge_loop t drop fuel 0 w (init_queue t w) [];
  Ok (remove_symbols w').

Definition no_drop (_ : nat) : bool := false.

(** word.go:401-407, 409-421.  [GetChars] and [GetOffsets]. *)
Definition get_chars (w : list sym) : list Z := map s_c w.

Fixpoint get_offsets_from (pos : Z) (w : list sym) : list (Z * Z) :=
  match w with
  | [] => []
  | s :: w' => (pos, pos + s_len s)%Z :: get_offsets_from (pos + s_len s) w'
  end.
Definition get_offsets (w : list sym) : list (Z * Z) := get_offsets_from 0 w.

(** /repo/model/model.go.  Vocab = map[string]int, VocabR = map[int]string. *)
Definition vocab := list (str * Z).
Definition vocab_r := list (Z * str).
Definition vget (s : str) (v : vocab) : option Z := aget str_eqb s v.
Definition vrget (i : Z) (v : vocab_r) : option str := aget Z.eqb i v.

(** bpe.go:135-137 and 225-228.  The reverse vocabulary; [order] is the order in
    which Go happens to iterate over the vocabulary. *)
Definition build_vocab_r (order : vocab) : vocab_r :=
  fold_left (fun m p => aset Z.eqb (snd p) (fst p) m) order [].

(** bpe.go:163-185.  The model, without dropout value and cache. *)
Record bpe := Bpe {
  b_vocab : vocab;
  b_vocab_r : vocab_r;
  b_merges : merge_table;
  b_unk : option str;
  b_prefix : option str;   (* ContinuingSubwordPrefix *)
  b_suffix : option str;   (* EndOfWordSuffix *)
}.

Definition opt_str (o : option str) : str := match o with Some s => s | None => [] end.

(** bpe.go:382-391.  The string looked up for the rune number [i] of [n]; the
    source compares the index with the rune count before incrementing it, so the
    suffix case is for [i = n]. *)
Definition char_key (b : bpe) (n i : nat) (r : N) : str :=
  if i =? 0 then opt_str (b_prefix b) ++ encode_rune r
  else if i =? n then encode_rune r ++ opt_str (b_suffix b)
  else encode_rune r.

(** bpe.go:394-410.  The id of a character; [None] is the panic "Can't find unk
    token".  A configured unknown token missing from the vocabulary gives 0, Go's
    zero value for a missing map key. *)
Definition char_id (b : bpe) (key : str) : option Z :=
  match vget key (b_vocab b) with
  | Some id => Some id
  | None =>
      match b_unk b with
      | Some u => match vget u (b_vocab b) with Some id => Some id | None => Some 0%Z end
      | None => None
      end
  end.

(** bpe.go:359-411.  The word before merging.  The length of a character is that
    of its re-encoding, [len(string(r))]. *)
Definition init_word (b : bpe) (s : str) : res (list sym) :=
  let rs := runes s in
  foldR (fun w (p : nat * N) =>
           let '(i, r) := p in
           match char_id b (char_key b (length rs) i r) with
           | Some id => Ok (word_add w id (zlen (encode_rune r)))
           | None => Panic
           end)
        (combine (seq 0 (length rs)) rs) [].

(** bpe.go:359-421.  [MergeWord]. *)
Definition merge_word (b : bpe) (drop : nat -> bool) (fuel : nat) (s : str) : res (list sym) :=
  do w <- init_word b s;
  merge_all (b_merges b) drop fuel w.

(** /repo/model.go.  A model token: id, value, offsets. *)
Record token := Tok { t_id : Z; t_value : str; t_off : Z * Z }.

(** bpe.go:424-452.  [WordToTokens]; a missing id has the empty string. *)
Definition word_to_tokens (b : bpe) (w : list sym) : list token :=
  map (fun p : Z * (Z * Z) =>
         Tok (fst p) (opt_str (vrget (fst p) (b_vocab_r b))) (snd p))
      (combine (get_chars w) (get_offsets w)).

(** A bound on the number of iterations of the merge loop without dropout; that
    it suffices is a theorem. *)
Definition enough (s : str) : nat := 4 * length (runes s) + 1.

(** bpe.go:464-477 without the cache, i.e. [MergeWord] and [WordToTokens]. *)
Definition bpe_tokenize (b : bpe) (s : str) : res (list token) :=
  if length s =? 0 then Ok []
  else do w <- merge_word b no_drop (enough s) s; Ok (word_to_tokens b w).

(** bpe.go:464-477 with dropout: the random draws are [drop]. *)
Definition bpe_tokenize_dropout (b : bpe) (drop : nat -> bool) (fuel : nat) (s : str)
  : res (list token) :=
  if length s =? 0 then Ok []
  else do w <- merge_word b drop fuel s; Ok (word_to_tokens b w).

(** A word built by calling [Add] for each (id, length), as MergeWord does
    (bpe.go:376-412). *)
Definition build_word (l : list (Z * Z)) : list sym :=
  fold_left (fun w p => word_add w (fst p) (snd p)) l [].
