(** C59: where added tokens are recognised. *)
From Verif Require Import Base BaseProofs Utf8Model Utf8Proofs NormalizedModel NormalizedSpec AddedVocabModel AddedVocabSpec PipelineModel PipelineSpec
  AddedPatternModel AddedPatternSpec AddedPatternProofs.
Open Scope Z_scope.

(** A token without options is found at its occurrences, from left to right; those that are
    not taken begin inside one that is. *)
Theorem C59_plain : forall is_word n t, at_single t = false -> at_lstrip t = false -> at_rstrip t = false -> at_content t <> [] ->
  exists r, get_pattern is_word n t = Ok r /\ forall s, all_found (at_range (at_content t) s) s (find_re r None s 0 0).
Proof.
  intros is_word n t S L R Ne. eexists. split; [exact (get_pattern_plain is_word n t S)|]. rewrite L, R. intros s. now apply plain_found.
Qed.
Print Assumptions C59_plain.

(** Every pattern: the text with its word edges, and at most one white space on either side
    where it is to be stripped. *)
Theorem C59_found : forall r s, tr_text r <> [] ->
  all_found (fun a b => exists c d, recognised r s a b c d) s (find_re r None s 0 0).
Proof.
  intros r s Ne. destruct (find_all r Ne s) as (O & R & C). split; [exact O|]. split; [exact R|]. intros a b (c & d & H). exact (C a b c d H).
Qed.
Print Assumptions C59_found.

(** A single-word token that begins and ends with an ASCII letter, digit or underscore is
    found where neither neighbour is one. *)
Theorem C59_single_partial : forall is_word t c cs, at_single t = true -> at_lstrip t = false -> at_rstrip t = false ->
  Forall scalar (c :: cs) -> at_content t = encode (c :: cs) ->
  in_word (Some c) = true -> is_word c = true -> in_word (Some (last cs c)) = true -> is_word (last cs c) = true ->
  exists r, get_pattern is_word None t = Ok r /\
    forall s, all_found (fun a b => at_range (at_content t) s a b /\ in_word (byte_at s (a - 1)) = false /\ in_word (byte_at s b) = false) s
                (find_re r None s 0 0).
Proof.
  intros is_word t c cs S L R Sc E W1 I1 W2 I2. eexists. split; [apply (get_pattern_single is_word t c cs S); rewrite E; now apply runes_encode|].
  rewrite L, R, I1, I2. intros s. destruct (word_ends c cs W1 W2) as [(l & E1) (k & E2)]. rewrite <- E in E1, E2. exact (ascii_word_found _ s c l _ k E1 E2 W1 W2).
Qed.
Print Assumptions C59_single_partial.

(** But a letter outside ASCII is no neighbour: the token is found inside a word. *)
Theorem C59_single_refuted : forall is_word t c cs u, at_single t = true -> at_lstrip t = false -> at_rstrip t = false ->
  Forall scalar (c :: cs) -> at_content t = encode (c :: cs) ->
  in_word (Some c) = true -> is_word c = true -> in_word (Some (last cs c)) = true -> is_word (last cs c) = true -> (128 <= u)%N ->
  exists r, get_pattern is_word None t = Ok r /\
    In (zlen (encode_rune u), zlen (encode_rune u ++ at_content t)) (find_re r None (encode_rune u ++ at_content t) 0 0).
Proof.
  intros is_word t c cs u S L R Sc E W1 I1 W2 I2 Hu. eexists. split; [apply (get_pattern_single is_word t c cs S); rewrite E; now apply runes_encode|].
  rewrite L, R, I1, I2. destruct (word_ends c cs W1 W2) as [(l & E1) (k & E2)]. rewrite <- E in E1, E2. exact (behind_letter u _ c l _ k Hu E1 E2 W1 W2).
Qed.
Print Assumptions C59_single_refuted.

(** And one that begins with any other "word character" (a punctuation mark, say) is found
    only behind an ASCII letter, digit or underscore: never as a word of its own. *)
Theorem C59_single_glued_refuted : forall is_word t c cs, at_single t = true -> at_lstrip t = false -> at_rstrip t = false ->
  Forall scalar (c :: cs) -> at_content t = encode (c :: cs) -> is_word c = true -> in_word (Some (hd 0%N (at_content t))) = false ->
  exists r, get_pattern is_word None t = Ok r /\
    (forall s, Forall (fun m => exists b, byte_at s (fst m - 1) = Some b /\ in_word (Some b) = true) (find_re r None s 0 0)) /\
    find_re r None (at_content t) 0 0 = [].
Proof.
  intros is_word t c cs S L R Sc E I1 W. eexists. split; [apply (get_pattern_single is_word t c cs S); rewrite E; now apply runes_encode|].
  rewrite L, R, I1. destruct (at_content t) as [|x l] eqn:Ew.
  - exfalso. rewrite encode_cons in E. destruct (encode_rune c) eqn:Er; [now apply (encode_rune_nonempty c)|discriminate].
  - cbn [hd] in W. split; [|now apply (alone_lost _ x l)]. intros s. destruct (single_found true (is_word (last cs c)) (x :: l) s ltac:(discriminate)) as (_ & F & _).
    apply (Forall_impl _ (P := fun m => at_range (x :: l) s (fst m) (snd m) /\ (true = true -> word_edge s (fst m)) /\ (is_word (last cs c) = true -> word_edge s (snd m)))); [|exact F].
    intros m (H & A & _). specialize (A eq_refl). unfold word_edge in A. rewrite (part_head _ s _ _ x l H eq_refl) in A. rewrite W in A.
    destruct (byte_at s (fst m - 1)) as [b|]; [|now destruct A]. exists b. split; [reflexivity|]. now apply Bool.not_false_is_true.
Qed.
Print Assumptions C59_single_glued_refuted.

(** Stripping takes at most one white space: behind two of them, the first one is left. *)
Theorem C59_strip_refuted : forall is_word t x l b1 b2 rest, at_single t = false -> at_content t = x :: l -> blank_byte x = false ->
  blank_byte b1 = true -> blank_byte b2 = true ->
  exists r, get_pattern is_word None t = Ok r /\ Forall (fun m => 0 < fst m) (find_re r None (b1 :: b2 :: rest) 0 0).
Proof.
  intros is_word t x l b1 b2 rest S E Hx B1 B2. eexists. split; [exact (get_pattern_plain is_word None t S)|]. exact (blanks_left _ _ x l b1 b2 rest _ _ _ _ E Hx eq_refl B1 B2).
Qed.
Print Assumptions C59_strip_refuted.

(** The content of a token that is looked for in the normalized text is not normalized
    itself: with a character that [lower] always removes, the token is in no text. *)
Theorem C59_normalized_refuted : forall is_word lower t b, at_single t = false -> In b (at_content t) -> (forall x, ~ In b (lower x)) ->
  exists r, get_pattern is_word (Some (run_op (OCase lower))) t = Ok r /\
    forall s, exists m, apply_normalizer (Some (run_op (OCase lower))) (new_ns s) = Ok m /\ find_re r None (ns_norm m) 0 0 = [].
Proof.
  intros is_word lower t b S Hb Hl. eexists. split; [exact (get_pattern_plain is_word _ t S)|]. intros s. eexists. split; [reflexivity|]. apply (missing_byte _ _ b); cbn [tr_text].
  - intros E. rewrite E in Hb. contradiction.
  - exact Hb.
  - apply Hl.
Qed.
Print Assumptions C59_normalized_refuted.

(** The ranges suit the encoding pipeline (C54, C58). *)
Theorem C59_matching : forall is_word n ids norm ts l, token_patterns is_word n ids norm ts = Ok l ->
  Forall (fun t => at_content t <> [] /\ valid_utf8 (at_content t) /\
    (at_single t = true -> forall m, apply_normalizer n (new_ns (at_content t)) = Ok m -> ns_norm m <> [] /\ valid_utf8 (ns_norm m))) ts ->
  matching_ok (re_matching l).
Proof. intros is_word n ids norm ts l E F. apply re_matching_ok. exact (patterns_ok_all is_word n ids norm ts l E F). Qed.
Print Assumptions C59_matching.

(** "aa" in "aaa aab"; "ab" as a word; "[M]" as a word; "x" with white space. *)
Definition letters (c : N) : bool := (in_word (Some c) || (c =? 91) || (c =? 93) || (c =? 233))%N.
Definition found (t : added_token) (s : str) : list (Z * Z) :=
  match get_pattern letters None t with Ok r => find_re r None s 0 0 | _ => [] end.
Example C59_ex :
  found (AT [97; 97]%N false false false false) [97; 97; 97; 32; 97; 97; 98]%N = [(0, 2); (4, 6)] /\
  found (AT [97; 98]%N true false false false) [97; 98; 32; 97; 98; 99; 46; 97; 98; 45]%N = [(0, 2); (7, 9)] /\
  found (AT [97; 98]%N true false false false) (encode [233; 97; 98]%N) = [(2, 4)] /\
  found (AT [91; 77; 93]%N true false false false) [97; 32; 91; 77; 93; 32; 97]%N = [] /\
  found (AT [91; 77; 93]%N true false false false) [97; 91; 77; 93; 97]%N = [(1, 4)] /\
  found (AT [120]%N false true true false) [32; 32; 120; 32; 120; 32; 32]%N = [(1, 4); (4, 6)].
Proof. vm_compute. repeat split. Qed.
(** "Yes" is not in the lower-case texts, "yes" is. *)
Definition lower_ascii (s : str) : str := map (fun b => if (65 <=? b) && (b <=? 90) then b + 32 else b)%N s.
Example C59_lower_ex :
  (forall x, ~ In 89%N (lower_ascii x)) /\
  found (AT [89; 101; 115]%N false false false true) (lower_ascii [89; 101; 115]%N) = [] /\
  found (AT [121; 101; 115]%N false false false true) (lower_ascii [89; 101; 115]%N) = [(0, 3)].
Proof.
  split; [|vm_compute; repeat split]. intros x H. apply in_map_iff in H as (b & E & _). destruct (N.leb_spec 65 b), (N.leb_spec b 90); cbn in E; lia.
Qed.
