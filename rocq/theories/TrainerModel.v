(** Model of the BPE trainer, /repo/model/bpe/trainer.go and /repo/model/bpe/word.go:174-255.
    A word is its list of symbol ids; lengths and links of the symbols play no role here. *)
From Verif Require Import Base Utf8Model BpeModel DecoderModel.
Open Scope Z_scope.

(** ** Counting pairs *)
Definition pair_counts := list ((Z * Z) * Z).
(** whereToUpdate: for a pair, the set of word indices. *)
Definition pair_words := list ((Z * Z) * list nat).

Definition pc_get (p : Z * Z) (m : pair_counts) : Z := match aget pair_eqb p m with Some c => c | None => 0 end.
Definition pc_add (p : Z * Z) (c : Z) (m : pair_counts) : pair_counts := aset pair_eqb p (pc_get p m + c) m.
Definition set_add (k : nat) (s : list nat) : list nat := if existsb (Nat.eqb k) s then s else (s ++ [k])%list.
Definition pw_get (p : Z * Z) (m : pair_words) : list nat := match aget pair_eqb p m with Some s => s | None => [] end.
Definition pw_add (p : Z * Z) (k : nat) (m : pair_words) : pair_words := aset pair_eqb p (set_add k (pw_get p m)) m.

(** The windows of width two of a word. *)
Definition adjacent (w : list Z) : list (Z * Z) := combine w (tl w).

(** One worker, trainer.go:413-467: the words with index in [i, j).  The condition of the
    inner loop (425) compares the worker's start index [i] with the length of the word. *)
Definition count_chunk (items : list (list Z * Z)) (i j : nat) : pair_counts * pair_words :=
  fold_left (fun (s : pair_counts * pair_words) k =>
    match nth_error items k with
    | None => s
    | Some (w, c) =>
        if Z.of_nat i <? zlen w - 1
        then fold_left (fun (s : pair_counts * pair_words) p => (pc_add p c (fst s), pw_add p k (snd s))) (adjacent w) s
        else s
    end) (seq i (j - i)) ([], []).

(** trainer.go:404-411: the ranges given to the workers. *)
Fixpoint ranges_from (fuel n size i : nat) : list (nat * nat) :=
  match fuel with
  | O => []
  | S fuel' => if (i <? n)%nat then (i, Nat.min (i + size) n) :: ranges_from fuel' n size (i + size) else []
  end.

(** trainer.go:390-400. *)
Definition worker_ranges (n : nat) : list (nat * nat) :=
  let workers := if Z.of_nat n <? 10000 then 1%nat else 4%nat in
  ranges_from n n (Nat.max 1 (n / workers)) 0.

(** The collector, trainer.go:471-488: counts are added up, sets of word indices replaced. *)
Definition collect (results : list (pair_counts * pair_words)) : pair_counts * pair_words :=
  fold_left (fun s r =>
    (fold_left (fun m e => pc_add (fst e) (snd e) m) (fst r) (fst s),
     fold_left (fun m e => aset pair_eqb (fst e) (snd e) m) (snd r) (snd s))) results ([], []).

(** trainer.go:372-507; [arrival] is the order in which the workers deliver their results. *)
Definition count_pairs (arrival : list nat) (words : list (list Z)) (counts : list Z) : pair_counts * pair_words :=
  let rs := worker_ranges (length words) in
  collect (flat_map (fun k => match nth_error rs k with
                              | Some (i, j) => [count_chunk (combine words counts) i j]
                              | None => [] end) arrival).

(** ** The vocabulary before merging *)
(** trainer.go:128-149.  The progress bar setting is left out. *)
Record tcfg := TCfg {
  tc_min : Z; tc_size : Z; tc_special : list str; tc_limit : option Z;
  tc_initial : list str; tc_prefix : option str; tc_suffix : option str }.

(** String comparison of Go: bytewise lexicographic. *)
Fixpoint str_leb (a b : str) : bool :=
  match a, b with
  | [], _ => true
  | _ :: _, [] => false
  | x :: a', y :: b' => (x <? y)%N || ((x =? y)%N && str_leb a' b')
  end.
Fixpoint insert_str (x : str) (l : list str) : list str :=
  match l with
  | [] => [x]
  | y :: l' => if str_leb x y then x :: l else y :: insert_str x l'
  end.
(** sort.Strings. *)
Definition sort_strs (l : list str) : list str := fold_right insert_str [] l.

Definition add_str (l : list str) (s : str) : list str := if existsb (str_eqb s) l then l else (l ++ [s])%list.

(** The keys of the alphabet map, sorted, trainer.go:208-241.  (The frequencies are computed
    but never used.)  [wc]: the word counts. *)
Definition alphabet_keys (c : tcfg) (wc : list (str * Z)) : list str :=
  sort_strs (fold_left add_str (flat_map (fun e => explode (fst e)) wc ++ tc_initial c)%list []).

(** trainer.go:247-268.  Simplification: a negative limit, for which the slice expression
    exceeds the length, is a panic. *)
Definition kept_chars (c : tcfg) (keys : list str) : res (list str) :=
  match tc_limit c with
  | None => Ok keys
  | Some l => if l <? zlen keys then zslice keys 0 (zlen keys - l) else Ok keys
  end.

(** The two tables wordToId and idToWord. *)
Definition tables := (vocab * list str)%type.
Definition add_token (t : tables) (s : str) : tables :=
  match vget s (fst t) with
  | Some _ => t
  | None => (aset str_eqb s (zlen (snd t)) (fst t), (snd t ++ [s])%list)
  end.

(** trainer.go:190-197.  The slice is passed by value; only the map is changed. *)
Definition add_special (c : tcfg) (t : tables) : vocab := fst (fold_left add_token (tc_special c) t).

(** trainer.go:200-295. *)
Definition compute_alphabet (c : tcfg) (wc : list (str * Z)) : res tables :=
  do kept <- kept_chars c (alphabet_keys c wc); Ok (fold_left add_token kept ([], [])).

Section Train.
  (** [addr w i]: the text of the address that formatting the pointer to the prefix or suffix
      setting yields for character [i] of word [w], trainer.go:329 and 340.
      [pick]: which entry of the queue Pop returns. *)
  Context (addr : nat -> nat -> str).

  (** trainer.go:326-344: the string of character [i] of [n], [c], of word number [w]. *)
  Definition char_string (cf : tcfg) (w n i : nat) (c : str) : str :=
    if (i =? n - 1)%nat then match tc_suffix cf with Some _ => (addr w i ++ c)%list | None => c end
    else if (i =? 0)%nat then match tc_prefix cf with Some _ => (addr w i ++ c)%list | None => c end
    else c.

  (** trainer.go:321-357: one word. *)
  Definition tokenize_chars (cf : tcfg) (w : nat) (chars : list str) (t : tables) : tables * list Z :=
    fold_left (fun (s : tables * list Z) (e : nat * str) =>
      let '(t, syms) := s in
      let '(i, c) := e in
      match vget c (fst t) with
      | None => s
      | Some _ =>
          let s' := char_string cf w (length chars) i c in
          let t' := add_token t s' in
          match vget s' (fst t') with
          | Some id => (t', (syms ++ [id])%list)
          | None => (t', syms)
          end
      end) (combine (seq 0 (length chars)) chars) (t, []).

  (** trainer.go:298-369.  [keys]: the words in sorted order. *)
  Fixpoint tokenize_words (cf : tcfg) (w : nat) (keys : list str) (t : tables) : tables * list (list Z) :=
    match keys with
    | [] => (t, [])
    | k :: keys' =>
        let '(t1, syms) := tokenize_chars cf w (explode k) t in
        let '(t2, ws) := tokenize_words cf (S w) keys' t1 in (t2, syms :: ws)
    end.

  (** ** Merging *)
  (** TMerge, trainer.go:27-32, without the time, whose only use is to order equal counts. *)
  Record tmerge := TM { tm_pair : Z * Z; tm_count : Z; tm_pos : list nat }.

  Context (pick : list tmerge -> nat).

  (** Word.Merge, word.go:174-255: the new symbols and the recorded changes.  [prev]: the
      symbol before, absent at the start of the word. *)
  Fixpoint merge_syms (c1 c2 r : Z) (prev : option Z) (w : list Z) : list Z * list ((Z * Z) * Z) :=
    match w with
    | [] => ([], [])
    | a :: w' =>
        match w' with
        | b :: rest =>
            if (a =? c1) && (b =? c2) then
              let '(w2, ch) := merge_syms c1 c2 r (Some r) rest in
              (r :: w2,
               (match prev with
                | Some p => ((p, c1), -1) :: ((p, r), 1) ::
                    match rest with [] => [] | x :: _ => [((c2, x), -1); ((r, x), 1)] end
                | None => []
                end ++ ch)%list)
            else let '(w2, ch) := merge_syms c1 c2 r (Some a) w' in (a :: w2, ch)
        | [] => ([a], [])
        end
    end.

  Record tstate := TS {
    ts_tab : tables; ts_words : list (list Z); ts_counts : pair_counts;
    ts_queue : list tmerge; ts_merges : list ((Z * Z) * Z) }.

  Definition remove_nth {A} (i : nat) (l : list A) : list A := (firstn i l ++ skipn (S i) l)%list.

  (** trainer.go:732-746: is the pair still adjacent in one of its words? *)
  Definition still_there (words : list (list Z)) (m : tmerge) : res bool :=
    foldR (fun found k => do w <- zindex words (Z.of_nat k);
                          Ok (found || existsb (pair_eqb (tm_pair m)) (adjacent w)))
          (tm_pos m) false.

  (** strings.TrimPrefix, trainer.go:757-762. *)
  Definition strip_prefix (p : option str) (s : str) : str :=
    match p with
    | Some q => if str_eqb q (firstn (length q) s) then skipn (length q) s else s
    | None => s
    end.

  (** trainer.go:777-792: merge in the words of the entry, collecting the changes. *)
  Definition merge_words (m : tmerge) (newId : Z) (words : list (list Z))
    : res (list (list Z) * list (((Z * Z) * Z) * nat)) :=
    foldR (fun (s : list (list Z) * list (((Z * Z) * Z) * nat)) k =>
      do w <- zindex (fst s) (Z.of_nat k);
      let '(w', ch) := merge_syms (fst (tm_pair m)) (snd (tm_pair m)) newId None w in
      do ws <- zupd (fst s) (Z.of_nat k) w';
      Ok (ws, (snd s ++ map (fun c => (c, k)) ch)%list)) (tm_pos m) (words, []).

  (** trainer.go:797-825: only the positive changes are counted. *)
  Definition apply_changes (counts : list Z) (changes : list (((Z * Z) * Z) * nat)) (pc : pair_counts)
    : res (pair_counts * pair_words) :=
    foldR (fun (s : pair_counts * pair_words) e =>
      let '((p, d), k) := e in
      if 0 <? d then
        do c <- zindex counts (Z.of_nat k);
        Ok (pc_add p (d * c) (fst s), pw_add p k (snd s))
      else Ok s) changes (pc, []).

  (** trainer.go:830-841 (and 660-676 for the first entries). *)
  Definition new_entries (positive_only : bool) (pc : pair_counts) (pw : pair_words) : list tmerge :=
    flat_map (fun e =>
      if positive_only && (pc_get (fst e) pc <=? 0) then []
      else [TM (fst e) (pc_get (fst e) pc) (snd e)]) pw.

  (** trainer.go:751-841: a merge. *)
  Definition do_merge (cf : tcfg) (counts : list Z) (m : tmerge) (q : list tmerge) (s : tstate) : res tstate :=
    let '(w2id, id2w) := ts_tab s in
    do partA <- zindex id2w (fst (tm_pair m));
    do partB <- zindex id2w (snd (tm_pair m));
    let newToken := (partA ++ strip_prefix (tc_prefix cf) partB)%list in
    let newId := zlen id2w in
    do wc <- merge_words m newId (ts_words s);
    do pp <- apply_changes counts (snd wc) (ts_counts s);
    Ok (TS (aset str_eqb newToken newId w2id, (id2w ++ [newToken])%list) (fst wc) (fst pp)
           (q ++ new_entries true (fst pp) (snd pp))%list
           (ts_merges s ++ [(tm_pair m, newId)])%list).

  (** trainer.go:700-851, the loop. *)
  Fixpoint train_loop (cf : tcfg) (counts : list Z) (fuel : nat) (s : tstate) : res tstate :=
    match fuel with
    | O => NoFuel
    | S fuel' =>
        if tc_size cf <=? zlen (fst (ts_tab s)) then Ok s
        else match ts_queue s with
        | [] => Ok s
        | _ :: _ =>
            match nth_error (ts_queue s) (pick (ts_queue s)) with
            | None => Panic
            | Some m =>
                let q := remove_nth (pick (ts_queue s)) (ts_queue s) in
                if negb (tm_count m =? pc_get (tm_pair m) (ts_counts s)) then
                  train_loop cf counts fuel'
                    (TS (ts_tab s) (ts_words s) (aset pair_eqb (tm_pair m) (tm_count m) (ts_counts s))
                        (q ++ [m])%list (ts_merges s))
                else if (tm_count m <? 1) || (tm_count m <? tc_min cf) then Ok s
                else
                  do there <- still_there (ts_words s) m;
                  if negb there then
                    train_loop cf counts fuel' (TS (ts_tab s) (ts_words s) (ts_counts s) q (ts_merges s))
                  else do s' <- do_merge cf counts m q s; train_loop cf counts fuel' s'
            end
        end
    end.

  (** trainer.go:857-865: the merge table of the model. *)
  Definition rank_merges (l : list ((Z * Z) * Z)) : merge_table :=
    fold_left (fun t e => aset pair_eqb (fst (snd e)) (fst e, snd (snd e)) t)
      (combine (map Z.of_nat (seq 0 (length l))) l) [].

  (** trainer.go:600-699: the state when the loop starts.  [wc]: the word counts (a map; the
      words are taken in sorted order).  The result of addSpecialTokens is overwritten by
      that of computeAlphabet (620 and 627). *)
  Definition train_start (cf : tcfg) (arrival : list nat) (wc : list (str * Z)) : res (tstate * list Z) :=
    let w2id := add_special cf ([], []) in
    do t <- compute_alphabet cf wc;
    let '(w2id, id2w) := t in
    let keys := sort_strs (map fst wc) in
    let '(t', words) := tokenize_words cf 0 keys (w2id, id2w) in
    let counts := map (fun k => match aget str_eqb k wc with Some c => c | None => 0 end) keys in
    let '(pc, pw) := count_pairs arrival words counts in
    Ok (TS t' words pc (new_entries false pc pw) [], counts).

  (** trainer.go:600-886.  The vocabulary and merge table given to the builder; the table
      idToWord is kept for the statements. *)
  Definition train_bpe (cf : tcfg) (arrival : list nat) (wc : list (str * Z)) (fuel : nat)
    : res (tables * list ((Z * Z) * Z)) :=
    do s <- train_start cf arrival wc;
    do r <- train_loop cf (snd s) fuel (fst s);
    Ok (ts_tab r, ts_merges r).

  (** The trained model, trainer.go:867-885 and bpe.go:104-161. *)
  Definition trained_model (cf : tcfg) (r : tables * list ((Z * Z) * Z)) : bpe :=
    Bpe (fst (fst r)) (build_vocab_r (fst (fst r))) (rank_merges (snd r)) None (tc_prefix cf) (tc_suffix cf).
End Train.
