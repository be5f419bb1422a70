(** Theorems on WordPiece, WordLevel, Unigram and vocabulary files (C18, C35-C38, C52). *)
From Verif Require Import Base BaseProofs Utf8Model Utf8Proofs BpeModel BpeSpec BpeTokProofs BpeSaveModel WordPieceModel WordPieceSpec
  WordPieceProofs UnigramModel UnigramSpec UnigramProofs PropBpe.
From Coq Require Import Permutation Sorted.
Open Scope Z_scope.

(** * C18: token/id lookups are mutually inverse *)

(** BPE, WordPiece and WordLevel invert the vocabulary, visiting it in any order. *)
Theorem C18_bpe : forall b order,
  NoDup (map fst (b_vocab b)) -> NoDup (map snd (b_vocab b)) -> Permutation order (b_vocab b) ->
  b_vocab_r b = build_vocab_r order ->
  forall t i, vget t (b_vocab b) = Some i <-> vrget i (b_vocab_r b) = Some t.
Proof. intros b order N M P E t i. rewrite E. now apply lookup_inverse. Qed.
Print Assumptions C18_bpe.
Theorem C18_wordpiece : forall v order unk prefix max,
  NoDup (map fst v) -> NoDup (map snd v) -> Permutation order v ->
  let wp := wp_build v order unk prefix max in
  forall t i, wp_token_to_id wp t = Some i <-> wp_id_to_token wp i = Some t.
Proof. intros v order unk prefix max N M P wp t i. now apply lookup_inverse. Qed.
Print Assumptions C18_wordpiece.
Theorem C18_wordlevel : forall v order unk,
  NoDup (map fst v) -> NoDup (map snd v) -> Permutation order v ->
  let wl := wl_build (WLC (Some v) unk) order in
  forall t i, wl_token_to_id wl t = Some i <-> wl_id_to_token wl i = Some t.
Proof. intros v order unk N M P wl t i. now apply lookup_inverse. Qed.
Print Assumptions C18_wordlevel.
(** Unigram: the id is the position in the list. *)
Theorem C18_unigram_partial : forall (S : Type) (u : unigram (S := S)),
  NoDup (map fst (ug_vocab u)) ->
  forall t i, ug_token_to_id u t = Some i <-> ug_id_to_token u i = Some t.
Proof. intros S u. exact (ug_inverse u). Qed.
Print Assumptions C18_unigram_partial.
(** Without distinct ids an id still names a token that has it. *)
Theorem C18_repeated_ids : forall v order i t,
  NoDup (map fst v) -> Permutation order v ->
  vrget i (build_vocab_r order) = Some t -> vget t v = Some i.
Proof. intros v order i t. exact (vocab_r_inverse v order i t). Qed.
Print Assumptions C18_repeated_ids.
(** A Unigram token listed twice: the first position is not found again. *)
Theorem C18_unigram_duplicate_refuted : forall (S : Type) (u : unigram (S := S)) t i j sc sc',
  nth_error (ug_vocab u) i = Some (t, sc) -> nth_error (ug_vocab u) j = Some (t, sc') -> (i < j)%nat ->
  ug_id_to_token u (Z.of_nat i) = Some t /\ ug_token_to_id u t <> Some (Z.of_nat i).
Proof.
  intros S u t i j sc sc' Hi Hj L. split.
  - unfold ug_id_to_token. assert (i < length (ug_vocab u))%nat by (apply nth_error_Some; congruence).
    replace (Z.of_nat i <? 0) with false by lia. unfold zlen. replace (Z.of_nat (length (ug_vocab u)) <=? Z.of_nat i) with false by lia.
    cbn. now rewrite Nat2Z.id, Hi.
  - intros E. apply ug_lookup in E as (k & x & Ek & _ & M). apply (M j); [lia|]. now rewrite nth_error_map, Hj.
Qed.
Print Assumptions C18_unigram_duplicate_refuted.

Definition ex_vocab : vocab :=
  [([91; 85; 93]%N, 0); ([117; 110]%N, 1); ([35; 35; 97; 98]%N, 2); ([35; 35; 97]%N, 3); ([35; 35; 98; 108; 101]%N, 4)].
Lemma ex_vocab_ok : NoDup (map fst ex_vocab) /\ NoDup (map snd ex_vocab).
Proof. split; cbn; repeat constructor; cbn; intuition discriminate. Qed.
Example C18_ex : NoDup (map fst ex_vocab) /\ NoDup (map snd ex_vocab) /\ Permutation (rev ex_vocab) ex_vocab /\
  wp_id_to_token (wp_build ex_vocab (rev ex_vocab) [91; 85; 93]%N [35; 35]%N 100) 3 = Some [35; 35; 97]%N.
Proof. split; [apply ex_vocab_ok|]. split; [apply ex_vocab_ok|]. split; [apply Permutation_sym, Permutation_rev|reflexivity]. Qed.

(** * C35: WordPiece is greedy longest-match-first *)

(** If the word (its characters) has a greedy segmentation, those are the tokens. *)
Theorem C35_greedy : forall wp s ps,
  zlen (runes s) <= wp_max wp -> greedy (wp_vocab wp) (wp_prefix wp) true (runes s) ps ->
  wp_tokenize wp s = Ok (piece_tokens (wp_prefix wp) true 0 ps).
Proof. exact wp_greedy. Qed.
Print Assumptions C35_greedy.
(** Otherwise, or if the word is too long, the unknown token or an error. *)
Theorem C35_unknown : forall wp s,
  wp_max wp < zlen (runes s) \/ (forall ps, ~ greedy (wp_vocab wp) (wp_prefix wp) true (runes s) ps) ->
  wp_tokenize wp s = match vget (wp_unk wp) (wp_vocab wp) with
                     | Some id => Ok [Tok id (wp_unk wp) (0, zlen (runes s))]
                     | None => Err
                     end.
Proof. exact wp_unk_case. Qed.
Print Assumptions C35_unknown.
(** The two cases are exhaustive, and the greedy segmentation is unique and covers the word. *)
Theorem C35_cases : forall wp s,
  wp_max wp < zlen (runes s) \/ (forall ps, ~ greedy (wp_vocab wp) (wp_prefix wp) true (runes s) ps) \/
  exists ps, greedy (wp_vocab wp) (wp_prefix wp) true (runes s) ps /\ zlen (runes s) <= wp_max wp.
Proof. exact wp_cases. Qed.
Print Assumptions C35_cases.
Theorem C35_unique : forall v prefix first w ps, greedy v prefix first w ps ->
  (forall ps', greedy v prefix first w ps' -> ps = ps') /\ concat (map snd ps) = w.
Proof. intros v prefix first w ps G. split; [exact (greedy_unique _ _ _ _ _ G)|exact (greedy_concat _ _ _ _ _ G)]. Qed.
Print Assumptions C35_unique.
(** The tokens tile the word, counted in characters. *)
Theorem C35_tiles : forall wp s toks, s <> [] ->
  wp_tokenize wp s = Ok toks -> tiles 0 (zlen (runes s)) (map t_off toks).
Proof. exact wp_tiles. Qed.
Print Assumptions C35_tiles.
Theorem C35_values : forall wp s toks, wp_tokenize wp s = Ok toks ->
  Forall (fun t => vget (t_value t) (wp_vocab wp) = Some (t_id t)) toks.
Proof. exact wp_values. Qed.
Print Assumptions C35_values.

Definition ex_wp : wordpiece := wp_build ex_vocab ex_vocab [91; 85; 93]%N [35; 35]%N 100.
(** "unable" = "un" "##ab" is greedy but leaves "le": unknown; "una" is split. *)
Example C35_ex : greedy ex_vocab [35; 35]%N true [117; 110; 97]%N [(1, [117; 110]%N); (3, [97]%N)] /\
  wp_tokenize ex_wp [117; 110; 97]%N = Ok [Tok 1 [117; 110]%N (0, 2); Tok 3 [35; 35; 97]%N (2, 3)] /\
  wp_tokenize ex_wp [117; 110; 97; 98; 108; 101]%N = Ok [Tok 0 [91; 85; 93]%N (0, 6)].
Proof.
  split; [|split; reflexivity].
  apply (greedy_piece _ _ true [117; 110]%N [97]%N 1 [(3, [97]%N)]); [discriminate|reflexivity| |].
  - intros q r E L. destruct q as [|a [|b [|c [|d q]]]]; cbn in *; try lia; injection E as <- <- <- E; [|discriminate]. reflexivity.
  - apply (greedy_piece _ _ false [97]%N [] 3 []); [discriminate|reflexivity| |constructor].
    intros q r E L. destruct q as [|a [|b q]]; cbn in *; try lia. injection E as <- E. discriminate.
Qed.

(** * C36: model token offsets are byte offsets *)

Theorem C36_bpe_partial : forall b s toks,
  valid_utf8 s -> bpe_tokenize b s = Ok toks -> tiles 0 (zlen s) (map t_off toks).
Proof. exact C11_offsets_tile_partial. Qed.
Print Assumptions C36_bpe_partial.
Theorem C36_wordlevel : forall wl s toks, wl_tokenize wl s = Ok toks -> map t_off toks = [(0, zlen s)].
Proof.
  intros wl s toks. unfold wl_tokenize. destruct (vget s _); [intros [= <-]; reflexivity|].
  destruct (vget _ _); [intros [= <-]; reflexivity|discriminate].
Qed.
Print Assumptions C36_wordlevel.
Theorem C36_wordpiece_partial : forall wp s toks, s <> [] -> (forall b, In b s -> (b < 128)%N) ->
  wp_tokenize wp s = Ok toks -> tiles 0 (zlen s) (map t_off toks).
Proof.
  intros wp s toks Hs H E. pose proof (wp_tiles _ _ _ Hs E) as T. now rewrite (single_bytes_runes s H) in T.
Qed.
Print Assumptions C36_wordpiece_partial.
(** For every word with a multi-byte character the offsets do not cover its bytes. *)
Theorem C36_wordpiece_refuted : forall wp s toks, valid_utf8 s -> (exists b, In b s /\ (128 <= b)%N) ->
  wp_tokenize wp s = Ok toks -> ~ tiles 0 (zlen s) (map t_off toks).
Proof. exact wp_not_bytes. Qed.
Print Assumptions C36_wordpiece_refuted.
Theorem C36_unigram_partial : forall (S : Type) lt (bot zero : S) plus bonus penal u s toks,
  score_laws lt bot plus -> ug_bytes u = false ->
  ug_tokenize lt bot zero plus bonus penal u s = Ok toks ->
  tiles 0 (zlen s) (map t_off toks) /\ concat (map t_value toks) = s.
Proof. intros S lt bot zero plus bonus penal u s toks L. exact (unigram_tiles lt bot zero plus bonus penal L u s toks). Qed.
Print Assumptions C36_unigram_partial.
(** With byte fallback and byte tokens in the vocabulary each byte is given six. *)
Theorem C36_unigram_refuted : forall (S : Type) lt (bot zero : S) plus bonus penal u s,
  ug_bytes u = true -> (forall b, In b s -> ug_token_to_id u (byte_token b) <> None) ->
  exists toks, ug_tokenize lt bot zero plus bonus penal u s = Ok toks /\ tiles 0 (6 * zlen s) (map t_off toks).
Proof.
  intros S lt bot zero plus bonus penal u s Hb H.
  destruct (byte_fallback_tokens lt bot zero plus bonus penal u s Hb H) as (toks & E & _ & T). eauto.
Qed.
Print Assumptions C36_unigram_refuted.
(** "é" in WordPiece: offsets (0,1) of a two-byte word. *)
Example C36_ex : valid_utf8 [195; 169]%N /\
  wp_tokenize ex_wp [195; 169]%N = Ok [Tok 0 [91; 85; 93]%N (0, 1)].
Proof. split; [exists [233]%N; split; [repeat constructor; unfold scalar; lia|reflexivity]|reflexivity]. Qed.

(** * C37: WordLevel *)

(** One token spanning the word, with its id or the unknown id; an error iff neither is there. *)
Theorem C37_tokenize : forall wl s,
  match wl_tokenize wl s with
  | Ok toks => exists id, toks = [Tok id s (0, zlen s)] /\
      (vget s (wl_vocab wl) = Some id \/ vget s (wl_vocab wl) = None /\ vget (wl_unk wl) (wl_vocab wl) = Some id)
  | Err => vget s (wl_vocab wl) = None /\ vget (wl_unk wl) (wl_vocab wl) = None
  | _ => False
  end.
Proof.
  intros wl s. unfold wl_tokenize. destruct (vget s (wl_vocab wl)) as [id|] eqn:E.
  - exists id. auto.
  - destruct (vget (wl_unk wl) (wl_vocab wl)) as [id|] eqn:E2; [exists id; auto|auto].
Qed.
Print Assumptions C37_tokenize.
(** The builder: any history that sets dense vocabularies and names new unknown tokens
    keeps ids 0..n-1, each once. *)
Theorem C37_builder_partial : forall c o v,
  wlc_vocab c = Some v -> NoDup (map fst v) -> dense v ->
  match o with
  | WLVocab None => False
  | WLVocab (Some v') => NoDup (map fst v') /\ dense v'
  | WLUnk u => ~ In u (map fst v)
  end ->
  exists c' v', wl_step c o = Ok c' /\ wlc_vocab c' = Some v' /\ NoDup (map fst v') /\ dense v'.
Proof.
  intros c o v E N D G. apply (wl_step_dense c o v E N D). destruct o as [[v'|]|u]; cbn; auto. now rewrite E.
Qed.
Print Assumptions C37_builder_partial.
Example C37_builder_ex : wlc_vocab wl_new_builder = Some [(default_unk, 0)] /\ dense [(default_unk, 0)] /\
  ~ In [91; 85; 93]%N (map fst [(default_unk, 0)]).
Proof. split; [reflexivity|]. split; [apply Permutation_refl|]. cbn. intuition discriminate. Qed.
(** The id given to the unknown token is the size of the vocabulary: it is shared iff
    another token has that id. *)
Theorem C37_unk_id : forall c u v c', wlc_vocab c = Some v -> wl_step c (WLUnk u) = Ok c' ->
  exists v', wlc_vocab c' = Some v' /\ vget u v' = Some (zlen v) /\ forall t, t <> u -> vget t v' = vget t v.
Proof. exact wl_unk_id. Qed.
Print Assumptions C37_unk_id.
(** From the default builder, UnkToken("<unk>") and then UnkToken(u) give both the id 1. *)
Theorem C37_shared_id_refuted : forall u, u <> default_unk ->
  exists c1 c2 v, wl_step wl_new_builder (WLUnk default_unk) = Ok c1 /\ wl_step c1 (WLUnk u) = Ok c2 /\
    wlc_vocab c2 = Some v /\ vget u v = Some 1 /\ vget default_unk v = Some 1.
Proof.
  intros u Hu. eexists _, _, _. split; [reflexivity|]. split; [reflexivity|]. split; [reflexivity|].
  change (zlen [(default_unk, zlen [(default_unk, 0)])]) with 1. unfold vget.
  assert (Hne : str_eqb u default_unk = false) by now apply str_eqb_neq.
  rewrite !(ag_aset str_eqb str_eqb_eq). rewrite str_eqb_refl.
  assert (Hne' : str_eqb default_unk u = false) by (apply str_eqb_neq; congruence).
  rewrite Hne'. split; reflexivity.
Qed.
Print Assumptions C37_shared_id_refuted.
(** After Vocab(nil), UnkToken panics. *)
Theorem C37_nil_vocab_refuted : forall c u c', wl_step c (WLVocab None) = Ok c' -> wl_step c' (WLUnk u) = Panic.
Proof. intros c u c' [= <-]. reflexivity. Qed.
Print Assumptions C37_nil_vocab_refuted.

(** * C38: Unigram picks the best segmentation *)

(** Without byte fallback: the tokens are those of a segmentation whose score, as the
    program adds it up, no other segmentation exceeds; if no segmentation has a score above
    -Inf, the whole text is unknown, or an error. *)
Theorem C38_best_partial : forall (S : Type) lt (bot zero : S) plus bonus penal u s,
  score_laws lt bot plus -> ug_bytes u = false -> s <> [] ->
  (exists gs, segmentation u s gs /\
     ug_tokenize lt bot zero plus bonus penal u s = Ok (ug_tokens u 0 (texts u gs)) /\
     lt bot (total lt zero plus bonus penal u gs) = true /\
     forall gs', segmentation u s gs' ->
       lt (total lt zero plus bonus penal u gs) (total lt zero plus bonus penal u gs') = false) \/
  ((forall gs, segmentation u s gs -> lt bot (total lt zero plus bonus penal u gs) = false) /\
   ug_tokenize lt bot zero plus bonus penal u s =
     match ug_unk u with Some _ => Ok (ug_tokens u 0 [s]) | None => Err end).
Proof. intros S lt bot zero plus bonus penal u s L. exact (best lt bot zero plus bonus penal L u s). Qed.
Print Assumptions C38_best_partial.
(** The score given to unknown characters is taken from the lowest in the vocabulary. *)
Theorem C38_lowest : forall (S : Type) lt (bot zero : S) plus voc, score_laws lt bot plus -> voc <> [] ->
  In (min_score lt zero voc) (map snd voc) /\ Forall (fun p => lt (snd p) (min_score lt zero voc) = false) voc.
Proof. intros S lt bot zero plus voc. exact (min_score_least lt bot plus zero voc). Qed.
Print Assumptions C38_lowest.
(** The token values are the segments' texts (runs of unknown ones joined). *)
Theorem C38_values : forall (S : Type) (u : unigram (S := S)) s gs, segmentation u s gs ->
  map t_value (ug_tokens u 0 (texts u gs)) = texts u gs /\ concat (texts u gs) = s.
Proof. intros S u s gs G. split; [exact (texts_values u s gs G)|]. exact (proj1 (texts_concat u s gs G)). Qed.
Print Assumptions C38_values.
(** Each token carries the id of its text, or the unknown id if its text is no token. *)
Theorem C38_ids : forall (S : Type) (u : unigram (S := S)) toks off, Forall (fun t =>
  ug_token_to_id u (t_value t) = Some (t_id t) \/ (ug_token_to_id u (t_value t) = None /\ ug_unk u = Some (t_id t)))
  (ug_tokens u off toks).
Proof. intros S u toks off. exact (ug_tokens_ids u toks off). Qed.
Print Assumptions C38_ids.
(** In exact arithmetic and without unknown token: the sum of the scores is maximal. *)
Theorem C38_no_unknown_partial : forall u s toks,
  ug_bytes u = false -> ug_unk u = None -> (forall t x, In (t, x) (ug_vocab u) -> x <> None) -> s <> [] ->
  ug_tokenize zlt None (Some 0) zplus zbonus zpenal u s = Ok toks ->
  exists gs, segmentation u s gs /\ map t_value toks = map seg_text gs /\
    map (fun t => Some (t_id t)) toks = map (seg_id None) gs /\
    forall gs', segmentation u s gs' -> plain_total 0 gs' <= plain_total 0 gs.
Proof. exact no_unknown_best. Qed.
Print Assumptions C38_no_unknown_partial.
(** a: -1.00, b: -1.00, ab: -1.50, abc: -5.00, c: -2.00; "abc" = "ab" "c". *)
Definition ex_ug : unigram (S := option Z) :=
  UG [([97]%N, Some (-100)); ([98]%N, Some (-100)); ([97; 98]%N, Some (-150)); ([97; 98; 99]%N, Some (-500)); ([99]%N, Some (-200))]
     None false true.
Example C38_ex : ug_tokenize zlt None (Some 0) zplus zbonus zpenal ex_ug [97; 98; 99]%N =
  Ok [Tok 2 [97; 98]%N (0, 2); Tok 4 [99]%N (2, 3)].
Proof. reflexivity. Qed.
(** The length bonus is only given to known tokens: with unknown characters of different
    widths the segmentation with the larger sum is not chosen.  Text "éxy", tokens "éx"
    (-1.05), "xy" (-1.00) and "<unk>" (-2.00): chosen "éx" + unknown "y". *)
Definition bonus_ug : unigram (S := option Z) :=
  UG [([195; 169; 120]%N, Some (-105)); ([120; 121]%N, Some (-100)); (default_unk, Some (-200))] (Some 2) false true.
Theorem C38_bonus_refuted : exists gs gs', segmentation bonus_ug [195; 169; 120; 121]%N gs /\
  segmentation bonus_ug [195; 169; 120; 121]%N gs' /\
  (exists toks, ug_tokenize zlt None (Some 0) zplus zbonus zpenal bonus_ug [195; 169; 120; 121]%N = Ok toks /\
     map t_value toks = map seg_text gs) /\
  plain_total (-200 - 1000) gs < plain_total (-200 - 1000) gs'.
Proof.
  assert (E0 : entry (ug_vocab bonus_ug) [195; 169; 120]%N 0 (Some (-105))).
  { apply nodup_entry; [repeat constructor; cbn; intuition discriminate|reflexivity]. }
  assert (E1 : entry (ug_vocab bonus_ug) [120; 121]%N 1 (Some (-100))).
  { apply nodup_entry; [repeat constructor; cbn; intuition discriminate|reflexivity]. }
  exists [Known [195; 169; 120]%N 0%nat (Some (-105)); Unknown [121]%N], [Unknown [195; 169]%N; Known [120; 121]%N 1%nat (Some (-100))].
  split; [|split; [|split]].
  - apply (seg_cons bonus_ug (Known [195; 169; 120]%N 0%nat (Some (-105))) [121]%N).
    + split; [exact E0|cbn; lia].
    + apply (seg_cons bonus_ug (Unknown [121]%N) []); [|constructor].
      split; [discriminate|]. split; [discriminate|]. split; [cbn; intuition discriminate|reflexivity].
  - apply (seg_cons bonus_ug (Unknown [195; 169]%N) [120; 121]%N).
    + split; [discriminate|]. split; [discriminate|]. split; [cbn; intuition discriminate|reflexivity].
    + apply (seg_cons bonus_ug (Known [120; 121]%N 1%nat (Some (-100))) []); [split; [exact E1|cbn; lia]|constructor].
  - eexists. split; reflexivity.
  - reflexivity.
Qed.
Print Assumptions C38_bonus_refuted.
(** Tokens longer than 20 bytes are never used: a vocabulary of such tokens tokenizes nothing,
    not even the tokens themselves. *)
Theorem C38_long_tokens_refuted : forall (S : Type) lt (bot zero : S) plus bonus penal u s,
  score_laws lt bot plus -> ug_bytes u = false -> ug_unk u = None -> s <> [] ->
  (forall t, In t (map fst (ug_vocab u)) -> (20 < length t)%nat) ->
  ug_tokenize lt bot zero plus bonus penal u s = Err.
Proof. intros S lt bot zero plus bonus penal u s L. exact (long_tokens lt bot zero plus bonus penal L u s). Qed.
Print Assumptions C38_long_tokens_refuted.
(** With byte fallback enabled the scores play no part: every byte becomes a token, even in
    a text that is itself a token. *)
Theorem C38_byte_fallback_refuted : forall (S : Type) lt (bot zero : S) plus bonus penal u s,
  ug_bytes u = true -> (forall b, In b s -> ug_token_to_id u (byte_token b) <> None) ->
  exists toks, ug_tokenize lt bot zero plus bonus penal u s = Ok toks /\ map t_value toks = map byte_token s.
Proof.
  intros S lt bot zero plus bonus penal u s Hb H.
  destruct (byte_fallback_tokens lt bot zero plus bonus penal u s Hb H) as (toks & E & V & _). eauto.
Qed.
Print Assumptions C38_byte_fallback_refuted.
(** The byte tokens are "<0x00>" to "<0xFF>". *)
Theorem C38_byte_token : forall b, (b < 256)%N -> byte_token b = [60; 48; 120]%N ++
  [nth (N.to_nat (b / 16)) [48; 49; 50; 51; 52; 53; 54; 55; 56; 57; 65; 66; 67; 68; 69; 70]%N 0%N;
   nth (N.to_nat (b mod 16)) [48; 49; 50; 51; 52; 53; 54; 55; 56; 57; 65; 66; 67; 68; 69; 70]%N 0%N] ++ [62]%N.
Proof. exact byte_token_text. Qed.
Print Assumptions C38_byte_token.
Example C38_byte_fallback_ex :
  let u : unigram (S := option Z) := UG [([97]%N, Some 0); (byte_token 97, Some (-500))] None true true in
  ug_tokenize zlt None (Some 0) zplus zbonus zpenal u [97]%N = Ok [Tok 1 [60; 48; 120; 54; 49; 62]%N (0, 6)].
Proof. reflexivity. Qed.

(** * C52: vocabulary files survive save and load *)

Theorem C52_round_trip_partial : forall v sorted,
  NoDup (map fst v) -> dense v -> by_id v sorted -> (forall t, In t (map fst v) -> plain_token t) ->
  exists v', load_vocab (save_vocab sorted) = Ok v' /\ forall t, vget t v' = vget t v.
Proof.
  intros v sorted N D B Pl. exists sorted. split; [exact (load_saved v sorted N D B Pl)|].
  exact (vget_perm v sorted N (proj1 B)).
Qed.
Print Assumptions C52_round_trip_partial.
Example C52_ex : dense ex_vocab /\ by_id ex_vocab ex_vocab /\ (forall t, In t (map fst ex_vocab) -> plain_token t).
Proof.
  split; [apply Permutation_refl|]. split; [split; [apply Permutation_refl|repeat constructor; cbn; lia]|].
  cbn. intros t H. repeat destruct H as [<-|H]; try destruct H; (split; [cbn; intuition discriminate|split; [discriminate|reflexivity]]).
Qed.
(** A token with a newline is never found again. *)
Theorem C52_newline : forall sorted v' t, load_vocab (save_vocab sorted) = Ok v' -> In 10%N t -> vget t v' = None.
Proof. intros sorted v' t. exact (load_no_newline (save_vocab sorted) v' t). Qed.
Print Assumptions C52_newline.
(** A newline-free token ending in a carriage return is lost (unless the token with one more
    carriage return exists, whose line is read as this token). *)
Theorem C52_carriage_return_refuted : forall v sorted t v', by_id v sorted ->
  (forall t, In t (map fst v) -> ~ In 10%N t /\ zlen t < 65536) ->
  last t 0%N = 13%N -> ~ In (t ++ [13%N]) (map fst v) ->
  load_vocab (save_vocab sorted) = Ok v' -> vget t v' = None.
Proof. exact load_cr. Qed.
Print Assumptions C52_carriage_return_refuted.
Example C52_cr_ex : load_vocab (save_vocab [([97; 13]%N, 0)]) = Ok [([97]%N, 0)].
Proof. reflexivity. Qed.
(** A vocabulary with a token of 64 KiB or more cannot be read back. *)
Theorem C52_long_token_refuted : forall v sorted t, by_id v sorted -> (forall t, In t (map fst v) -> ~ In 10%N t) ->
  In t (map fst v) -> 65536 <= zlen t -> load_vocab (save_vocab sorted) = Err.
Proof. exact load_long. Qed.
Print Assumptions C52_long_token_refuted.
