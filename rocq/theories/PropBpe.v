(** Properties C11-C15: byte-pair-encoding tokenization. *)
From Coq Require Import Permutation.
From Verif Require Import Base Utf8Model Utf8Proofs BpeModel BpeSpec BpeTokSpec BpeProofs BpeRefProofs BpeTokProofs.
Open Scope Z_scope.

(** The model of the examples: a b c ab bc abc, <unk>; "abé" etc. *)
Definition s_a : str := [97%N]. Definition s_b : str := [98%N]. Definition s_c' : str := [99%N].
Definition s_unk : str := [60;117;62]%N.
Definition ex_vocab : vocab :=
  [(s_unk, 0); (s_a, 1); (s_b, 2); (s_c', 3); (s_a ++ s_b, 4); (s_b ++ s_c', 5)]%list.
Definition ex_merges : merge_table := [((1, 2), (0, 4)); ((2, 3), (1, 5))].
Definition ex_bpe : bpe := Bpe ex_vocab (build_vocab_r ex_vocab) ex_merges (Some s_unk) None None.
(** "abcébc": é is two bytes and unknown. *)
Definition ex_word : str := [97; 98; 99; 195; 169; 98; 99]%N.
Definition ex_tokens : list token :=
  [Tok 4 (s_a ++ s_b)%list (0, 2); Tok 3 s_c' (2, 3); Tok 0 s_unk (3, 5); Tok 5 (s_b ++ s_c')%list (5, 7)].

Example ex_tokenize : bpe_tokenize ex_bpe ex_word = Ok ex_tokens.
Proof. vm_compute. reflexivity. Qed.
Example ex_word_valid : valid_utf8 ex_word.
Proof. apply valid_utf8_iff. vm_compute. reflexivity. Qed.

(** * C11 *)

(** The offsets of the tokens of a (valid UTF-8) word start at 0, are contiguous,
    non-empty, and end at the byte length of the word. *)
Theorem C11_offsets_tile_partial : forall b s toks,
  valid_utf8 s -> bpe_tokenize b s = Ok toks -> tiles 0 (zlen s) (map t_off toks).
Proof.
  intros b s toks V H. pose proof (tokenize_off b s toks H) as T.
  now rewrite (valid_utf8_runes s V) in T.
Qed.
Print Assumptions C11_offsets_tile_partial.
Example C11_offsets_tile_ex : tiles 0 7 (map t_off ex_tokens).
Proof. exact (C11_offsets_tile_partial ex_bpe ex_word ex_tokens ex_word_valid ex_tokenize). Qed.

(** For every word that is not valid UTF-8 the last offset lies beyond the word. *)
Theorem C11_invalid_utf8_refuted : forall b s toks,
  ~ valid_utf8 s -> bpe_tokenize b s = Ok toks ->
  exists e, tiles 0 e (map t_off toks) /\ zlen s < e.
Proof.
  intros b s toks V H. exists (zlen (encode (runes s))). split; [now apply (tokenize_off b)|].
  pose proof (invalid_longer s V). unfold zlen. lia.
Qed.
Print Assumptions C11_invalid_utf8_refuted.
Example C11_invalid_ex :
  bpe_tokenize ex_bpe [97; 255]%N = Ok [Tok 1 s_a (0, 1); Tok 0 s_unk (1, 4)].
Proof. vm_compute. reflexivity. Qed.

(** Every token's value is the vocabulary string of its id, in whatever order Go
    iterates over the vocabulary when it builds the reverse map. *)
Theorem C11_values : forall b order s toks t,
  NoDup (map fst (b_vocab b)) -> Permutation order (b_vocab b) ->
  b_vocab_r b = build_vocab_r order ->
  (forall u, b_unk b = Some u -> vget u (b_vocab b) <> None) ->
  (forall c1 c2 r n, lookup_merge (b_merges b) c1 c2 = Some (r, n) ->
     exists k, vget k (b_vocab b) = Some n) ->
  bpe_tokenize b s = Ok toks -> In t toks -> vget (t_value t) (b_vocab b) = Some (t_id t).
Proof. exact tokenize_values. Qed.
Print Assumptions C11_values.
Example C11_values_ex :
  NoDup (map fst ex_vocab) /\
  (forall c1 c2 r n, lookup_merge ex_merges c1 c2 = Some (r, n) -> exists k, vget k ex_vocab = Some n).
Proof.
  split.
  - unfold ex_vocab, s_unk, s_a, s_b, s_c'. cbn. repeat (apply NoDup_cons; [cbn; intuition congruence|]). apply NoDup_nil.
  - intros c1 c2 r n H. unfold lookup_merge, ex_merges in H. cbn in H.
    destruct (pair_eqb (c1, c2) (1, 2)); [injection H as <- <-; now exists (s_a ++ s_b)%list|].
    destruct (pair_eqb (c1, c2) (2, 3)); [injection H as <- <-; now exists (s_b ++ s_c')%list|discriminate].
Qed.

(** * C12 *)

(** Merging a word, whatever its symbols (of positive length) and the table, ends
    within 3n+1 iterations, without panic; it performs prescribed merges only and
    leaves no pair of the table. *)
Theorem C12_merge_exhaustive : forall t l,
  Forall (fun p => 0 < snd p) l ->
  exists w', (forall fuel, (3 * length l < fuel)%nat -> merge_all t no_drop fuel (build_word l) = Ok w') /\
    merge_steps (lookup_merge t) l (map (fun s => (s_c s, s_len s)) w') /\
    exhausted (lookup_merge t) (map (fun s => (s_c s, s_len s)) w').
Proof. exact merge_all_exhaustive. Qed.
Print Assumptions C12_merge_exhaustive.
Example C12_ex : Forall (fun p => 0 < snd p) [(1, 1); (2, 1); (3, 1); (2, 2); (3, 1)] /\
  merge_all ex_merges no_drop 16 (build_word [(1, 1); (2, 1); (3, 1); (2, 2); (3, 1)])
  = Ok [Sym 4 (-1) 2 2; Sym 3 0 3 1; Sym 5 2 (-1) 3].
Proof. split; [repeat constructor|vm_compute; reflexivity]. Qed.

(** The same of tokenization: the tokens are the result of prescribed merges of the
    symbols of the word's characters, exhaustively ([char_symbol]: the vocabulary's
    id of the character, or that of the unknown token, with its byte length). *)
Theorem C12_tokenize_exhaustive : forall b s toks,
  b_prefix b = None -> bpe_tokenize b s = Ok toks ->
  exists l, Forall2 (char_symbol b) (runes s) l /\
    merge_steps (lookup_merge (b_merges b)) l (tok_segs toks) /\
    exhausted (lookup_merge (b_merges b)) (tok_segs toks).
Proof. exact tokenize_exhaustive. Qed.
Print Assumptions C12_tokenize_exhaustive.

Theorem C12_tokenize_terminates : forall b s, bpe_tokenize b s <> NoFuel.
Proof. exact tokenize_fuel. Qed.
Print Assumptions C12_tokenize_terminates.

(** * C13 *)

(** Each merge is of an adjacent pair of lowest rank, if the ids have lengths that
    add up in merges (as token strings have). *)
Theorem C13_lowest_rank_partial : forall t wt l,
  Forall (fun p => 0 < snd p) l ->
  (forall c, 0 < wt c) ->
  (forall c1 c2 r n, lookup_merge t c1 c2 = Some (r, n) -> wt n = wt c1 + wt c2) ->
  exists w', (forall fuel, (3 * length l < fuel)%nat -> merge_all t no_drop fuel (build_word l) = Ok w') /\
    ranked_steps (lookup_merge t) l (map (fun s => (s_c s, s_len s)) w') /\
    exhausted (lookup_merge t) (map (fun s => (s_c s, s_len s)) w').
Proof. exact merge_all_ranked. Qed.
Print Assumptions C13_lowest_rank_partial.

(** If moreover ranks are distinct, no pair consists of twice the same symbol, and
    pairs rank after the merges that create their parts (as in trained tables),
    the result is that of the reference procedure. *)
Theorem C13_reference_partial : forall t wt l,
  Forall (fun p => 0 < snd p) l ->
  (forall c, 0 < wt c) ->
  (forall c1 c2 r n, lookup_merge t c1 c2 = Some (r, n) -> wt n = wt c1 + wt c2) ->
  (forall c1 c2 d1 d2 r n m, lookup_merge t c1 c2 = Some (r, n) ->
     lookup_merge t d1 d2 = Some (r, m) -> c1 = d1 /\ c2 = d2) ->
  (forall c, lookup_merge t c c = None) ->
  (forall c1 c2 r n, lookup_merge t c1 c2 = Some (r, n) ->
     forall c r' n', lookup_merge t n c = Some (r', n') \/ lookup_merge t c n = Some (r', n') -> r < r') ->
  exists w', (forall fuel, (3 * length l < fuel)%nat -> merge_all t no_drop fuel (build_word l) = Ok w') /\
    map (fun s => (s_c s, s_len s)) w' = reference (lookup_merge t) l.
Proof. exact merge_all_reference. Qed.
Print Assumptions C13_reference_partial.

(** The same of tokenization. *)
Theorem C13_tokenize_reference_partial : forall b wt s toks,
  b_prefix b = None ->
  (forall c, 0 < wt c) ->
  (forall c1 c2 r n, lookup_merge (b_merges b) c1 c2 = Some (r, n) -> wt n = wt c1 + wt c2) ->
  (forall c1 c2 d1 d2 r n m, lookup_merge (b_merges b) c1 c2 = Some (r, n) ->
     lookup_merge (b_merges b) d1 d2 = Some (r, m) -> c1 = d1 /\ c2 = d2) ->
  (forall c, lookup_merge (b_merges b) c c = None) ->
  (forall c1 c2 r n, lookup_merge (b_merges b) c1 c2 = Some (r, n) ->
     forall c r' n', lookup_merge (b_merges b) n c = Some (r', n') \/
       lookup_merge (b_merges b) c n = Some (r', n') -> r < r') ->
  bpe_tokenize b s = Ok toks ->
  exists l, Forall2 (char_symbol b) (runes s) l /\
    tok_segs toks = reference (lookup_merge (b_merges b)) l.
Proof. exact tokenize_reference. Qed.
Print Assumptions C13_tokenize_reference_partial.

(** The hypotheses hold of the example table, with the lengths of the strings. *)
Definition ex_wt (c : Z) : Z := if (c =? 4) || (c =? 5) then 2 else 1.
Example C13_ex :
  (forall c, 0 < ex_wt c) /\
  (forall c1 c2 r n, lookup_merge ex_merges c1 c2 = Some (r, n) -> ex_wt n = ex_wt c1 + ex_wt c2) /\
  (forall c1 c2 d1 d2 r n m, lookup_merge ex_merges c1 c2 = Some (r, n) ->
     lookup_merge ex_merges d1 d2 = Some (r, m) -> c1 = d1 /\ c2 = d2) /\
  (forall c, lookup_merge ex_merges c c = None) /\
  (forall c1 c2 r n, lookup_merge ex_merges c1 c2 = Some (r, n) ->
     forall c r' n', lookup_merge ex_merges n c = Some (r', n') \/
       lookup_merge ex_merges c n = Some (r', n') -> r < r').
Proof.
  assert (H : forall c1 c2 r n, lookup_merge ex_merges c1 c2 = Some (r, n) ->
    (c1 = 1 /\ c2 = 2 /\ r = 0 /\ n = 4) \/ (c1 = 2 /\ c2 = 3 /\ r = 1 /\ n = 5)).
  { intros c1 c2 r n. unfold lookup_merge, ex_merges, pair_eqb. cbn.
    destruct ((c1 =? 1) && (c2 =? 2)) eqn:E1; [intros [= <- <-]; left; lia|].
    destruct ((c1 =? 2) && (c2 =? 3)) eqn:E2; [intros [= <- <-]; right; lia|discriminate]. }
  split; [|split; [|split; [|split]]].
  - intros c. unfold ex_wt. destruct ((c =? 4) || (c =? 5)); lia.
  - intros c1 c2 r n E. destruct (H _ _ _ _ E) as [(-> & -> & _ & ->)|(-> & -> & _ & ->)]; reflexivity.
  - intros c1 c2 d1 d2 r n m E1 E2. pose proof (H _ _ _ _ E1). pose proof (H _ _ _ _ E2). lia.
  - intros c. destruct (lookup_merge ex_merges c c) as [[r n]|] eqn:E; [|reflexivity].
    pose proof (H _ _ _ _ E). lia.
  - intros c1 c2 r n E c r' n' [E'|E']; pose proof (H _ _ _ _ E); pose proof (H _ _ _ _ E'); lia.
Qed.

(** Repeated symbols: the queue does not take the leftmost occurrence.  With the
    one merge (a,a), "aaaaa" becomes [aa][a][aa]; the reference is [aa][aa][a]. *)
Theorem C13_leftmost_refuted :
  exists t l w', (forall fuel, (3 * length l < fuel)%nat -> merge_all t no_drop fuel (build_word l) = Ok w') /\
    map (fun s => (s_c s, s_len s)) w' = [(2, 2); (1, 1); (2, 2)] /\
    reference (lookup_merge t) l = [(2, 2); (2, 2); (1, 1)].
Proof. exact leftmost_refuted. Qed.
Print Assumptions C13_leftmost_refuted.

(** * C14 *)

(** Whatever the random draws, merging does not panic, and if it ends then the
    result is reached by prescribed merges only. *)
Theorem C14_prescribed_partial : forall t drop fuel l,
  Forall (fun p => 0 < snd p) l ->
  merge_all t drop fuel (build_word l) = NoFuel \/
  exists w', merge_all t drop fuel (build_word l) = Ok w' /\
    merge_steps (lookup_merge t) l (map (fun s => (s_c s, s_len s)) w').
Proof. exact merge_all_dropout. Qed.
Print Assumptions C14_prescribed_partial.

(** The offsets of a finished tokenization with dropout tile the word. *)
Theorem C14_offsets_tile_partial : forall b drop fuel s toks,
  valid_utf8 s -> bpe_tokenize_dropout b drop fuel s = Ok toks -> tiles 0 (zlen s) (map t_off toks).
Proof. exact tokenize_dropout_off. Qed.
Print Assumptions C14_offsets_tile_partial.

(** On every word with two mergeable positions, if the first draw drops and the
    later ones do not, merging never ends. *)
Theorem C14_termination_refuted : forall t drop l i j c1 n1 c2 n2 d1 m1 d2 m2,
  Forall (fun p => 0 < snd p) l ->
  drop 0%nat = true -> (forall m, (1 <= m)%nat -> drop m = false) ->
  nth_error l i = Some (c1, n1) -> nth_error l (S i) = Some (c2, n2) -> lookup_merge t c1 c2 <> None ->
  nth_error l j = Some (d1, m1) -> nth_error l (S j) = Some (d2, m2) -> lookup_merge t d1 d2 <> None ->
  i <> j ->
  forall fuel, merge_all t drop fuel (build_word l) = NoFuel.
Proof. exact dropout_diverges. Qed.
Print Assumptions C14_termination_refuted.
Example C14_termination_ex :
  exists drop, drop 0%nat = true /\ (forall m, (1 <= m)%nat -> drop m = false) /\
  forall fuel, merge_all ex_merges drop fuel (build_word [(1, 1); (2, 1); (3, 1)]) = NoFuel.
Proof.
  exists (fun k => (k =? 0)%nat). split; [reflexivity|].
  assert (D : forall m, (1 <= m)%nat -> (m =? 0)%nat = false) by (intros m H; now apply Nat.eqb_neq; lia).
  split; [exact D|].
  apply (C14_termination_refuted ex_merges _ _ 0%nat 1%nat 1 1 2 1 2 1 3 1); auto; try discriminate.
  repeat constructor.
Qed.

(** * C15 *)

(** With an unknown token configured, tokenization never fails. *)
Theorem C15_no_panic : forall b s, b_unk b <> None -> exists toks, bpe_tokenize b s = Ok toks.
Proof. exact tokenize_unk_ok. Qed.
Print Assumptions C15_no_panic.

(** If the unknown token is in the vocabulary and takes no part in merges, the
    tokens carrying its id are exactly the single characters outside the
    vocabulary (or spelled like it). *)
Theorem C15_unknown_chars_partial : forall b s toks u uid,
  b_prefix b = None -> b_unk b = Some u -> vget u (b_vocab b) = Some uid ->
  (forall c1 c2 r n, lookup_merge (b_merges b) c1 c2 = Some (r, n) ->
     c1 <> uid /\ c2 <> uid /\ n <> uid) ->
  bpe_tokenize b s = Ok toks ->
  forall st e,
    In (uid, st, e) (tok_spans toks) <->
    exists pre r post, runes s = (pre ++ r :: post)%list /\
      (vget (encode_rune r) (b_vocab b) = None \/ vget (encode_rune r) (b_vocab b) = Some uid) /\
      st = zlen (encode pre) /\ e = zlen (encode pre) + zlen (encode_rune r).
Proof. exact tokenize_unknown. Qed.
Print Assumptions C15_unknown_chars_partial.
Example C15_ex : In (0, 3, 5) (tok_spans ex_tokens) /\ vget (encode_rune 233) ex_vocab = None.
Proof. split; [cbn; tauto|reflexivity]. Qed.

(** Without an unknown token, every word with a character outside the vocabulary
    panics. *)
Theorem C15_unconfigured_refuted : forall b s r,
  b_unk b = None -> b_prefix b = None -> In r (runes s) ->
  vget (encode_rune r) (b_vocab b) = None -> bpe_tokenize b s = Panic.
Proof. exact tokenize_unconfigured. Qed.
Print Assumptions C15_unconfigured_refuted.
Example C15_unconfigured_ex :
  bpe_tokenize (Bpe ex_vocab (build_vocab_r ex_vocab) ex_merges None None None) ex_word = Panic.
Proof. vm_compute. reflexivity. Qed.

(** An unknown token that is configured but missing from the vocabulary turns
    unknown characters into the token with id 0, whatever that is. *)
Theorem C15_missing_unk_refuted : forall b r u,
  b_unk b = Some u -> vget u (b_vocab b) = None -> b_prefix b = None -> scalar r ->
  vget (encode_rune r) (b_vocab b) = None ->
  bpe_tokenize b (encode_rune r) =
    Ok [Tok 0 (opt_str (vrget 0 (b_vocab_r b))) (0, zlen (encode_rune r))].
Proof. exact tokenize_missing_unk. Qed.
Print Assumptions C15_missing_unk_refuted.
Example C15_missing_ex :
  bpe_tokenize (Bpe [(s_a, 0)] [(0, s_a)] [] (Some s_unk) None None) [195; 169]%N = Ok [Tok 0 s_a (0, 2)].
Proof. vm_compute. reflexivity. Qed.
