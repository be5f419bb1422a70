(** Model of /repo/added-vocabulary.go and of the vocabulary functions of
    /repo/tokenizer.go:344-387. *)
From Verif Require Import Base BpeModel.

(** added-vocabulary.go:21-32.  [AddedToken]. *)
Record added_token := AT {
  at_content : str; at_single : bool; at_lstrip : bool; at_rstrip : bool; at_norm : bool }.

(** What the added vocabulary needs of a model (/repo/model.go): TokenToId,
    IdToToken, GetVocabSize. *)
Record base_model := Base {
  bm_t2i : str -> option Z; bm_i2t : Z -> option str; bm_size : Z }.

(** added-vocabulary.go:200-218.  The pattern sets are recomputed from the rest by
    [refresh]; here are the pattern strings with their token ids. *)
Record added_vocab := AV {
  av_map : list (str * Z);        (* addedTokenMap *)
  av_map_r : list (Z * str);      (* addedTokenMapR *)
  av_added : list added_token;    (* addedTokens *)
  av_special : list added_token;  (* specialTokens *)
  av_set : list str;              (* specialTokensSet *)
  av_norm : list (str * Z);       (* splitNormalizedRe: patterns and ids *)
  av_nnorm : list (str * Z);      (* splitRe *)
}.

(** 220-230.  [NewAddedVocabulary]. *)
Definition new_added_vocab : added_vocab := AV [] [] [] [] [] [] [].

(** 243-251.  [TokenToId]. *)
Definition av_token_to_id (m : base_model) (av : added_vocab) (t : str) : option Z :=
  match aget str_eqb t (av_map av) with Some i => Some i | None => bm_t2i m t end.

(** 254-261.  [IdToToken]. *)
Definition av_id_to_token (m : base_model) (av : added_vocab) (i : Z) : option str :=
  match aget Z.eqb i (av_map_r av) with Some t => Some t | None => bm_i2t m i end.

(** 264-268.  [IsSpecialToken]. *)
Definition is_special (av : added_vocab) (t : str) : bool := existsb (str_eqb t) (av_set av).

Section Add.
  Variable m : base_model.
  (** 125-172.  [GetPattern] with the tokenizer's normalizer: an external function
      (regexp quoting and an arbitrary normalizer); [None] is the log.Fatal at
      150. *)
  Variable pattern : added_token -> option str.
  (** 349-356.  Whether a pattern compiles. *)
  Variable compiles : str -> bool.

  (** 329-360.  [refreshAddedTokens]. *)
  Definition refresh (av : added_vocab) : res added_vocab :=
    do l <- mapR (fun t : added_token =>
               match av_token_to_id m av (at_content t) with
               | None => Fatal
               | Some id => match pattern t with
                            | None => Fatal
                            | Some p => Ok (at_norm t, (p, id))
                            end
               end) (av_special av ++ av_added av);
    let norm := map snd (filter fst l) in
    let nnorm := map snd (filter (fun x => negb (fst x)) l) in
    if forallb (fun x => compiles (fst x)) (norm ++ nnorm)
    then Ok (AV (av_map av) (av_map_r av) (av_added av) (av_special av) (av_set av) norm nnorm)
    else Fatal.

  (** 291-312.  One turn of the loop of [AddTokens]; the state carries the number
      of ignored tokens. *)
  Definition add_one (st : added_vocab * Z) (t : added_token) : added_vocab * Z :=
    let '(av, ignored) := st in
    if length (at_content t) =? 0 then (av, ignored + 1)%Z
    else
      match av_token_to_id m av (at_content t) with
      | Some id =>
          (AV (av_map av) (aset Z.eqb id (at_content t) (av_map_r av)) (av_added av)
              (av_special av) (av_set av) (av_norm av) (av_nnorm av), ignored + 1)%Z
      | None =>
          let id := (bm_size m + zlen (av_map av))%Z in
          (AV (aset str_eqb (at_content t) id (av_map av))
              (aset Z.eqb id (at_content t) (av_map_r av))
              (if is_special av (at_content t) then av_added av else av_added av ++ [t])
              (av_special av) (av_set av) (av_norm av) (av_nnorm av), ignored)
      end.

  (** 288-318.  [AddTokens]; returns the count. *)
  Definition add_tokens (ts : list added_token) (av : added_vocab) : res (added_vocab * Z) :=
    let '(av1, ignored) := fold_left add_one ts (av, 0%Z) in
    do av2 <- refresh av1;
    Ok (av2, (zlen ts - ignored)%Z).

  (** 274-280. *)
  Definition note_special (av : added_vocab) (t : added_token) : added_vocab :=
    if negb (length (at_content t) =? 0) && negb (is_special av (at_content t)) then
      AV (av_map av) (av_map_r av) (av_added av) (av_special av ++ [t])
         (at_content t :: av_set av) (av_norm av) (av_nnorm av)
    else av.

  (** 272-284.  [AddSpecialTokens]. *)
  Definition add_special_tokens (ts : list added_token) (av : added_vocab) : res (added_vocab * Z) :=
    add_tokens ts (fold_left note_special ts av).

  (** A call of the history: special or classic. *)
  Inductive add_call := AddTok (ts : list added_token) | AddSpecial (ts : list added_token).

  (** One call (/repo/tokenizer.go:534-541). *)
  Definition add_step (av : added_vocab) (c : add_call) : res (added_vocab * Z) :=
    match c with AddTok ts => add_tokens ts av | AddSpecial ts => add_special_tokens ts av end.

  (** A history of calls; the counts they return. *)
  Fixpoint add_history (av : added_vocab) (cs : list add_call) : res (added_vocab * list Z) :=
    match cs with
    | [] => Ok (av, [])
    | c :: cs' =>
        do r <- add_step av c;
        do r' <- add_history (fst r) cs';
        Ok (fst r', snd r :: snd r')
    end.
End Add.

(** /repo/tokenizer.go:344-365 over a model whose GetVocab returns its own map and
    whose GetVocabSize is the length of that map (BPE, WordPiece, WordLevel). *)
Record vocab_state := VS { vs_vocab : vocab; vs_vocab_r : vocab_r; vs_added : added_vocab }.

(** The interface of such a model (e.g. /repo/model/bpe/bpe.go:344-346, 495-507). *)
Definition vocab_model (v : vocab) (vr : vocab_r) : base_model :=
  Base (fun t => vget t v) (fun i => vrget i vr) (zlen v).

(** tokenizer.go:344-356.  [GetVocab]: the returned map is the model's own. *)
Definition get_vocab (with_added : bool) (s : vocab_state) : vocab * vocab_state :=
  let v := if with_added
           then fold_left (fun v p => aset str_eqb (fst p) (snd p) v) (av_map (vs_added s)) (vs_vocab s)
           else vs_vocab s in
  (v, VS v (vs_vocab_r s) (vs_added s)).

(** tokenizer.go:359-365.  [GetVocabSize]. *)
Definition get_vocab_size (with_added : bool) (s : vocab_state) : Z :=
  if with_added then (zlen (vs_vocab s) + zlen (av_map (vs_added s)))%Z else zlen (vs_vocab s).

(** tokenizer.go:378-387. *)
Definition vs_token_to_id (s : vocab_state) (t : str) : option Z :=
  av_token_to_id (vocab_model (vs_vocab s) (vs_vocab_r s)) (vs_added s) t.
Definition vs_id_to_token (s : vocab_state) (i : Z) : option str :=
  av_id_to_token (vocab_model (vs_vocab s) (vs_vocab_r s)) (vs_added s) i.

(** tokenizer.go:539-541.  [AddTokens]. *)
Definition vs_add_tokens (pattern : added_token -> option str) (compiles : str -> bool)
    (ts : list added_token) (s : vocab_state) : res (vocab_state * Z) :=
  do r <- add_tokens (vocab_model (vs_vocab s) (vs_vocab_r s)) pattern compiles ts (vs_added s);
  Ok (VS (vs_vocab s) (vs_vocab_r s) (fst r), snd r).

(** added-vocabulary.go:362-365.  A match: pattern number and byte range. *)
Definition io_pair : Type := (nat * (Z * Z)).

(** 396-404.  All matches, pattern by pattern; [found] has the match list of each
    pattern (FindAllStringIndex; patterns without a match have none, so asking the
    regexp set first changes nothing). *)
Definition io_pairs (found : list (list (Z * Z))) : list io_pair :=
  concat (map (fun p => map (pair (fst p)) (snd p)) (combine (seq 0 (length found)) found)).

Section Find.
  (** 407-408, 431.  sort.Sort by start and by pattern number. *)
  Variable sort_start sort_id : list io_pair -> list io_pair.

  (** 417-443.  The selection loop.  The re-sorting of the remaining matches is
      done in place, so the loop goes on with the re-sorted rest. *)
  Fixpoint select (fuel : nat) (l : list io_pair) (cur : Z) : list io_pair :=
    match fuel, l with
    | S fuel', p :: rest =>
        if (fst (snd p) <? cur)%Z then select fuel' rest cur
        else
          match rest with
          | [] => p :: select fuel' [] (snd (snd p))
          | _ => match sort_id (p :: rest) with
                 | q :: rest' => q :: select fuel' rest' (snd (snd p))
                 | [] => []
                 end
          end
    | _, _ => []
    end.

  (** 451-462.  The pieces in between; [None] is the id -1. *)
  Fixpoint fill (ids : list Z) (start total : Z) (l : list io_pair) : list (option Z * (Z * Z)) :=
    match l with
    | [] => if (start =? total)%Z then [] else [(None, (start, total))]
    | (idx, (a, b)) :: l' =>
        (if (start <? a)%Z then [(None, (start, a))] else [])
        ++ (Some (nth idx ids 0%Z), (a, b)) :: fill ids b total l'
    end.

  (** 387-465.  [findMatches] of a text of [total] bytes. *)
  Definition find_matches (total : Z) (ids : list Z) (found : list (list (Z * Z)))
    : list (option Z * (Z * Z)) :=
    if (total =? 0)%Z then [(None, (0, 0)%Z)]
    else
      let l := sort_id (sort_start (io_pairs found)) in
      fill ids 0 total (select (length l) l 0).
End Find.
