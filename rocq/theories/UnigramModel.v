(** Model of the Unigram model: /repo/model/unigram/unigram.go.  The cache (lines
    246-252, 257, 267) only stores results that are recomputed identically and is left
    out. *)
From Verif Require Import Base Utf8Model BpeModel.
Open Scope Z_scope.

(** strings.Join(l, "") and prefixing are plain concatenation. *)

(** fmt.Sprintf("<0x%02X>", b), unigram.go:499. *)
Definition hex_digit (d : N) : N := (if d <? 10 then 48 + d else 55 + d)%N.
Definition byte_token (b : N) : str := [60; 48; 120; hex_digit (b / 16); hex_digit (b mod 16); 62]%N.

(** s[i:j] with 0 <= i <= j <= len(s). *)
Definition sub (s : str) (i j : nat) : str := firstn (j - i) (skipn i s).

Section Unigram.
  (** float64 scores: the order, -Inf, 0, addition, 0.1 * length and x - 10. *)
  Context {S : Type}.
  Variable lt : S -> S -> bool.
  Variables bot zero : S.
  Variable plus : S -> S -> S.
  Variable bonus : nat -> S.
  Variable penal : S -> S.

  (** unigram.go:39-47.  TokenToIds is derived below. *)
  Record unigram := UG {
    ug_vocab : list (str * S);
    ug_unk : option Z;
    ug_bytes : bool;
    ug_fuse : bool;
  }.

  (** unigram.go:94-97.  The map from tokens to positions; the last duplicate wins. *)
  Definition ug_ids (voc : list (str * S)) : vocab :=
    fold_left (fun m p => aset str_eqb (fst (snd p)) (Z.of_nat (fst p)) m)
      (combine (seq 0 (length voc)) voc) [].

  (** unigram.go:92-114.  [Build]. *)
  Definition ug_build (voc : list (str * S)) (unk : option Z) (bytes fuse : bool) : res unigram :=
    match unk with
    | Some u => if zlen voc <=? u then Err else Ok (UG voc unk bytes fuse)
    | None => Ok (UG voc unk bytes fuse)
    end.

  (** unigram.go:163-166 and 186-191. *)
  Definition ug_token_to_id (u : unigram) (t : str) : option Z := vget t (ug_ids (ug_vocab u)).
  Definition ug_id_to_token (u : unigram) (i : Z) : option str :=
    if (i <? 0) || (zlen (ug_vocab u) <=? i) then None
    else option_map fst (nth_error (ug_vocab u) (Z.to_nat i)).

  (** unigram.go:170-183.  [getMinScore]. *)
  Definition min_score (voc : list (str * S)) : S :=
    match voc with
    | [] => zero
    | (_, x) :: _ => fold_left (fun m p => if lt (snd p) m then snd p else m) voc x
    end.

  (** unigram.go:311-315.  A lattice node. *)
  Record node := Node { n_score : S; n_index : Z; n_id : Z }.

  (** unigram.go:322-327. *)
  Definition lattice0 (n : nat) : list node := Node zero 0 (-1) :: repeat (Node bot (-1) (-1)) n.
  Definition nd (lat : list node) (i : nat) : node := nth i lat (Node bot (-1) (-1)).

  Fixpoint set_node (lat : list node) (j : nat) (x : node) : list node :=
    match lat, j with
    | [], _ => []
    | _ :: l, O => x :: l
    | y :: l, Datatypes.S j' => y :: set_node l j' x
    end.

  (** unigram.go:384-388 and 402-406.  Update node [j] if the new score is better. *)
  Definition relax (lat : list node) (i j : nat) (new : S) (id : Z) : list node :=
    if lt (n_score (nd lat j)) new then set_node lat j (Node new (Z.of_nat i) id) else lat.

  (** u.vocab[id].Score, unigram.go:373; [id] comes from the map, so it is in range. *)
  Definition score_of (u : unigram) (id : Z) : S :=
    match nth_error (ug_vocab u) (Z.to_nat id) with Some p => snd p | None => zero end.

  (** unigram.go:351-355.  utf8.RuneLen of the decoded rune: 3 for invalid bytes. *)
  Definition char_len (s : str) (i : nat) : nat := length (encode_rune (fst (decode_rune (skipn i s)))).

  (** unigram.go:360-394.  One candidate token s[i:j]; the state is the lattice and
      hasSingleNode. *)
  Definition try_token (u : unigram) (s : str) (i : nat) (st : list node * bool) (j : nat) : list node * bool :=
    let '(lat, single) := st in
    match ug_token_to_id u (sub s i j) with
    | None => st
    | Some id =>
        (relax lat i j (plus (plus (n_score (nd lat i)) (score_of u id)) (bonus (j - i))) id,
         single || (j =? i + char_len s i)%nat)
    end.

  (** unigram.go:334-409.  One position. *)
  Definition position (u : unigram) (s : str) (lat : list node) (i : nat) : list node :=
    if lt bot (n_score (nd lat i)) then
      let maxLen := if (length s <? i + 20)%nat then (length s - i)%nat else 20%nat in
      let '(lat', single) := fold_left (try_token u s i) (seq (i + 1) maxLen) (lat, false) in
      match ug_unk u with
      | Some unk =>
          let j := (i + char_len s i)%nat in
          if negb single && (j <=? length s)%nat
          then relax lat' i j (plus (n_score (nd lat' i)) (penal (min_score (ug_vocab u)))) unk
          else lat'
      | None => lat'
      end
    else lat.

  Definition lattice (u : unigram) (s : str) : list node :=
    fold_left (position u s) (seq 0 (length s)) (lattice0 (length s)).

  (** unigram.go:506-514.  [tokenizeWithByteFallback]. *)
  Definition byte_fallback (u : unigram) (s : str) : list str :=
    map (fun b =>
      match ug_token_to_id u (byte_token b) with
      | Some _ => byte_token b
      | None => match ug_unk u with
                | Some k => opt_str (ug_id_to_token u k)
                | None => byte_token b
                end
      end) s.

  (** unigram.go:429-467.  Backtracking with fusing; [tokens], [unks] and [pos] are the
      loop's variables.  [fuel] >= pos suffices. *)
  Fixpoint back_fuse (lat : list node) (s : str) (unk : Z) (fuel pos : nat) (tokens unks : list str)
    : res (list str) :=
    match pos with
    | O => Ok (match unks with [] => tokens | _ => concat unks :: tokens end)
    | _ =>
        match fuel with
        | O => NoFuel
        | Datatypes.S fuel' =>
            let st := n_index (nd lat pos) in
            if st <? 0 then Err
            else
              let tok := sub s (Z.to_nat st) pos in
              if n_id (nd lat pos) =? unk then back_fuse lat s unk fuel' (Z.to_nat st) tokens (tok :: unks)
              else back_fuse lat s unk fuel' (Z.to_nat st)
                     (tok :: match unks with [] => tokens | _ => concat unks :: tokens end) []
        end
    end.

  (** unigram.go:470-485.  Backtracking without fusing. *)
  Fixpoint back_plain (lat : list node) (s : str) (fuel pos : nat) (tokens : list str) : res (list str) :=
    match pos with
    | O => Ok tokens
    | _ =>
        match fuel with
        | O => NoFuel
        | Datatypes.S fuel' =>
            let st := n_index (nd lat pos) in
            if st <? 0 then Err
            else back_plain lat s fuel' (Z.to_nat st) (sub s (Z.to_nat st) pos :: tokens)
        end
    end.

  (** unigram.go:304-487.  [tokenizeWithViterbi]. *)
  Definition viterbi (u : unigram) (s : str) : res (list str) :=
    match s with
    | [] => Ok []
    | _ =>
        let lat := lattice u s in
        let n := length s in
        if lt bot (n_score (nd lat n)) then
          match ug_unk u with
          | Some unk => if ug_fuse u then back_fuse lat s unk n n [] [] else back_plain lat s n n []
          | None => back_plain lat s n n []
          end
        else
          match ug_unk u with
          | Some _ => Ok [s]
          | None => if ug_bytes u then Ok (byte_fallback u s) else Err
          end
    end.

  (** unigram.go:273-301.  [tokensToTokenizer]. *)
  Fixpoint ug_tokens (u : unigram) (offset : Z) (toks : list str) : list token :=
    match toks with
    | [] => []
    | t :: toks' =>
        let rest := ug_tokens u (offset + zlen t) toks' in
        match ug_token_to_id u t with
        | Some id => Tok id t (offset, offset + zlen t) :: rest
        | None => match ug_unk u with
                  | Some id => Tok id t (offset, offset + zlen t) :: rest
                  | None => rest
                  end
        end
    end.

  (** unigram.go:246-270.  [Tokenize] without the cache. *)
  Definition ug_tokenize (u : unigram) (s : str) : res (list token) :=
    if ug_bytes u then Ok (ug_tokens u 0 (byte_fallback u s))
    else do toks <- viterbi u s; Ok (ug_tokens u 0 toks).
End Unigram.
