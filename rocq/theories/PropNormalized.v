(** Properties C23-C28: splitting, transforming, aligning and slicing normalized
    strings. *)
From Verif Require Import Base Utf8Model Utf8Proofs PatternModel PatternSpec NormalizedModel NormalizedSpec.
From Verif Require Import NormalizedProofs NormalizedInvProofs NormalizedExactProofs NormalizedOpProofs.
Open Scope Z_scope.

Definition is_space (c : N) : bool := (c =? 32)%N || (c =? 160)%N || (c =? 8195)%N.
(** A view of a result for the examples. *)
Definition show (r : res ns) : res (list N * list (Z * Z) * list (Z * Z)) :=
  do n <- r; Ok (runes (ns_norm n), ns_al n, ns_ao_values n).
Definition texts (r : res (list ns)) : res (list (list N)) := do l <- r; Ok (map (fun n => runes (ns_norm n)) l).
(** "hé, l" *)
Definition he : list N := [104; 233; 44; 32; 108]%N.
Lemma he_scalar : Forall scalar he.
Proof. repeat constructor; unfold scalar; lia. Qed.
Lemma he_valid : valid_utf8 (encode he).
Proof. exists he. split; [exact he_scalar|reflexivity]. Qed.

(** ** C23 *)

(** Split cuts the text into the documented pieces, in order; with every behaviour but
    Removed the pieces put together are the text; Removed keeps the parts outside the
    matches; the pieces are well-formed.  Holds for all supported patterns whose matches
    are non-empty and fall between characters (always, for rune and function patterns),
    on all valid texts with ordered alignments.  Missing: patterns with empty matches. *)
Theorem C23_split_partial : forall n p b,
  wf n -> ordered (ns_al n) -> valid_utf8 (ns_norm n) -> ns_norm n <> [] ->
  well_behaved p -> supported p -> between_chars (ns_norm n) p ->
  exists ms ps, find_matches p (ns_norm n) = Ok ms /\ ns_split n p b = Ok ps /\
    map ns_norm ps = map (fun r => part (fst r) (snd r) (ns_norm n)) (piece_ranges b ms) /\
    (b <> Removed -> concat (map ns_norm ps) = ns_norm n) /\
    Forall (fun m => wf m /\ ordered (ns_al m)) ps.
Proof. exact split_pattern. Qed.
Print Assumptions C23_split_partial.

Example C23_hyps : wf (new_ns (encode he)) /\ ordered (ns_al (new_ns (encode he))) /\
  valid_utf8 (ns_norm (new_ns (encode he))) /\ ns_norm (new_ns (encode he)) <> [] /\
  well_behaved (PFn is_space) /\ supported (PFn is_space) /\ between_chars (encode he) (PFn is_space).
Proof.
  split; [exact (new_ns_wf _ he_valid)|]. split; [apply new_ns_ordered|]. split; [exact he_valid|].
  split; [discriminate|]. repeat split.
Qed.
(** "a--b-c" *)
Definition dashes : str := [97; 45; 45; 98; 45; 99]%N.
Example C23_ex :
  map (fun b => texts (ns_split (new_ns dashes) (PRune 45) b))
    [Removed; Isolated; MergedWithPrevious; MergedWithNext; Contiguous]
  = [Ok [[97]; [98]; [99]];
     Ok [[97]; [45]; [45]; [98]; [45]; [99]];
     Ok [[97; 45]; [45]; [98; 45]; [99]];
     Ok [[97]; [45]; [45; 98]; [45; 99]];
     Ok [[97]; [45; 45]; [98]; [45]; [99]]]%N.
Proof. reflexivity. Qed.

(** The grouping used in that statement, for the four behaviours: neighbours stay together exactly
    when [joins] says so, nothing is lost and no group is empty. *)
Theorem C23_groups : forall j ms, concat (group j ms) = ms /\ Forall (fun g => g <> []) (group j ms).
Proof. intros j ms. split; [apply group_concat|apply group_nonempty]. Qed.
Print Assumptions C23_groups.

(** The empty text yields one empty piece whatever the behaviour, for a function pattern. *)
Theorem C23_empty : forall f b, exists n, ns_split (new_ns []) (PFn f) b = Ok [n] /\ ns_norm n = [].
Proof. intros f b. destruct b; eexists; (split; [reflexivity|reflexivity]). Qed.
Print Assumptions C23_empty.

(** A pattern with an empty match at the end of the text (such as "$" or "x*") makes
    Split panic on every non-empty text. *)
Theorem C23_empty_match_refuted : forall n, wf n -> ordered (ns_al n) -> ns_norm n <> [] ->
  well_behaved (PRegexp (fun s => [(zlen s, zlen s)])) /\
  ns_split n (PRegexp (fun s => [(zlen s, zlen s)])) Isolated = Panic.
Proof.
  intros n W O H. split; [|now apply split_empty_end]. intros s. cbn. unfold zlen. lia.
Qed.
Print Assumptions C23_empty_match_refuted.
Example C23_empty_match_ex : wf (new_ns dashes) /\ ordered (ns_al (new_ns dashes)) /\ ns_norm (new_ns dashes) <> [].
Proof.
  split; [apply new_ns_wf; exists dashes; split; [repeat constructor; unfold scalar; lia|reflexivity]|].
  split; [apply new_ns_ordered|discriminate].
Qed.

(** ** C24 *)

(** TransformRange on a part of the normalized text: exactly that part is replaced. *)
Theorem C24_range_text : forall n s e items initial n',
  wf n -> valid_items items -> 0 <= s -> e <= zlen (ns_norm n) ->
  transform_range n (Rng s e OnNormalized) items initial = Ok n' ->
  s <= e /\
  ns_norm n' = firstn (Z.to_nat s) (ns_norm n) ++ items_text items ++ skipn (Z.to_nat e) (ns_norm n) /\
  ns_orig n' = ns_orig n /\ ns_shift n' = ns_shift n.
Proof. exact transform_range_text. Qed.
Print Assumptions C24_range_text.

(** It succeeds whenever the change list is in step with the selected characters. *)
Theorem C24_range_succeeds : forall n s e items,
  wf n -> ordered (ns_al n) -> 0 <= s <= e -> e <= zlen (ns_norm n) ->
  valid_utf8 (part s e (ns_norm n)) -> Forall (fun c => c <> 0%N) (runes (part s e (ns_norm n))) ->
  consumed items <= zlen (runes (part s e (ns_norm n))) ->
  exists n', transform_range n (Rng s e OnNormalized) items 0 = Ok n'.
Proof.
  intros n s e items W O H1 H2 V NZ C.
  apply (transform_range_ok n (Rng s e OnNormalized) items (Rng s e OnNormalized) W O); cbn [r_start r_end];
    rewrite ?Z.min_l by lia; try assumption.
  unfold target, into_full_range. cbn [r_on r_start r_end]. replace (s =? -1) with false by lia.
  replace (zlen (ns_norm n) <? e) with false by lia. reflexivity.
Qed.
Print Assumptions C24_range_succeeds.
Example C24_range_ex :
  let r := transform_range (new_ns (encode he)) (Rng 1 3 OnNormalized) [(encode_rune 101, 0); (encode_rune 769, 1)] 0 in
  show r = Ok ([104; 101; 769; 44; 32; 108]%N,
    [(0, 1); (1, 3); (1, 3); (1, 3); (3, 4); (4, 5); (5, 6)],
    [(0, 1); (1, 4); (1, 4); (4, 5); (5, 6); (6, 7)]).
Proof. reflexivity. Qed.

(** Transform of a fresh string: the whole text is replaced. *)
Theorem C24_transform_fresh_partial : forall s items initial n',
  valid_utf8 s -> valid_items items ->
  transform (new_ns s) items initial = Ok n' -> ns_norm n' = items_text items /\ ns_orig n' = s.
Proof. exact transform_fresh_text. Qed.
Print Assumptions C24_transform_fresh_partial.

(** On a part of the original text: the part of the normalized text that ConvertOffset
    finds for it is replaced.  (Transform is the case [a = 0], [b] the original length.) *)
Theorem C24_original_range_partial : forall n a b items initial n',
  wf n -> valid_items items ->
  transform_range n (Rng a b OnOriginal) items initial = Ok n' ->
  exists nr, convert_offset n (Rng a b OnOriginal) = Ok (Some nr) /\
    let e := Z.min (r_end nr) (zlen (ns_norm n)) in
    0 <= r_start nr <= e /\
    ns_norm n' = firstn (Z.to_nat (r_start nr)) (ns_norm n) ++ items_text items ++ skipn (Z.to_nat e) (ns_norm n) /\
    ns_orig n' = ns_orig n /\ ns_shift n' = ns_shift n.
Proof. exact transform_range_original_text. Qed.
Print Assumptions C24_original_range_partial.
Example C24_original_ex :
  show (do n <- nfd (fun _ => [[104]; [101; 769]; [44]; [32]; [108]]%N) (new_ns (encode he));
        transform_range n (Rng 1 3 OnOriginal) [(encode_rune 69, -1)] 0)
  = Ok ([104; 69; 44; 32; 108]%N,
        [(0, 1); (1, 3); (3, 4); (4, 5); (5, 6)],
        [(0, 1); (1, 2); (1, 2); (2, 3); (3, 4); (4, 5)]).
Proof. reflexivity. Qed.

(** No operation history changes the original text. *)
Theorem C24_original_untouched : forall os n n',
  run_ops os n = Ok n' -> ns_orig n' = ns_orig n /\ ns_shift n' = ns_shift n.
Proof. exact run_ops_original. Qed.
Print Assumptions C24_original_untouched.
Definition history : list op :=
  [ONfd (fun _ => [[104]; [101; 769]; [44]; [32]; [108]]%N); OFilter (fun c => negb (c =? 44)%N);
   OPrepend [62]%N; OCase (fun s => map (fun b => if (b =? 108)%N then 76%N else b) s); OReplace (PRune 32) [95; 95]%N].
Example C24_history_ex : show (run_ops history (new_ns (encode he))) =
  Ok ([62; 104; 101; 769; 95; 95; 76]%N,
      [(0, 1); (0, 1); (1, 3); (1, 3); (1, 3); (4, 5); (4, 5); (5, 6)],
      [(0, 2); (2, 4); (2, 4); (5, 6); (5, 7); (7, 8)]).
Proof. reflexivity. Qed.

(** A later Transform of the whole text does not replace the whole text: after Strip of
    a leading no-break space, the identity change list duplicates the text. *)
Theorem C24_later_transform_refuted :
  let s := encode [160; 104; 101]%N in
  exists n1 n2, lrstrip is_space true true (new_ns s) = Ok n1 /\ runes (ns_norm n1) = [104; 101]%N /\
    transform n1 [(encode_rune 104, 0); (encode_rune 101, 0)] 0 = Ok n2 /\
    runes (ns_norm n2) = [104; 101; 101]%N.
Proof. cbn zeta. eexists. eexists. split; [vm_compute; reflexivity|]. split; [reflexivity|]. split; vm_compute; reflexivity. Qed.
Print Assumptions C24_later_transform_refuted.

(** ** C25 *)

(** After any history starting from valid text: one original range per normalized byte,
    all inside the original text.  Missing: text that is not UTF-8, and case mappings
    that change the length (C26). *)
Theorem C25_aligned_partial : forall s os n,
  valid_utf8 s -> Forall op_ok os -> run_ops os (new_ns s) = Ok n ->
  length (ns_al n) = length (ns_norm n) /\ Forall (inside (zlen s)) (ns_al n).
Proof.
  intros s os n V F E. pose proof (run_ops_original os _ _ E) as [Ho _].
  destruct (run_ops_wf os _ _ F (new_ns_wf s V) E) as (W1 & W2 & _). rewrite Ho in W2. auto.
Qed.
Print Assumptions C25_aligned_partial.
Example C25_history_ok : Forall op_ok history.
Proof. repeat constructor. intros s. apply map_length. Qed.

(** The same from any well-formed string, for instance a piece made by Split. *)
Theorem C25_steps : forall os n n', Forall op_ok os -> wf n -> run_ops os n = Ok n' -> wf n'.
Proof. exact run_ops_wf. Qed.
Print Assumptions C25_steps.

(** The ranges follow the order of the text, as long as the removed characters at the
    start are at the end of the text or the text is only inserted. *)
Theorem C25_order_partial : forall n s e items initial n',
  wf n -> ordered (ns_al n) -> 0 <= s -> e <= zlen (ns_norm n) ->
  transform_range n (Rng s e OnNormalized) items initial = Ok n' ->
  valid_utf8 (part s e (ns_norm n)) -> Forall (fun c => c <> 0%N) (runes (part s e (ns_norm n))) ->
  consumed items <= zlen (runes (part s e (ns_norm n))) ->
  initial = 0 \/ e = zlen (ns_norm n) \/ Forall (fun it => 0 < snd it) items ->
  ordered (ns_al n').
Proof.
  intros n s e items initial n' W O H1 H2 E V NZ C D.
  apply (transform_range_ordered n (Rng s e OnNormalized) items initial n' (Rng s e OnNormalized) W O E);
    cbn [r_start r_end]; rewrite ?Z.min_l by lia; try assumption.
  unfold target, into_full_range. cbn [r_on r_start r_end]. replace (s =? -1) with false by lia.
  replace (zlen (ns_norm n) <? e) with false by lia. reflexivity.
Qed.
Print Assumptions C25_order_partial.
Example C25_order_ex :
  let n := new_ns (encode he) in
  wf n /\ ordered (ns_al n) /\ valid_utf8 (part 1 3 (ns_norm n)) /\
  Forall (fun c => c <> 0%N) (runes (part 1 3 (ns_norm n))) /\
  consumed [(encode_rune 101, 0); (encode_rune 769, 1)] <= zlen (runes (part 1 3 (ns_norm n))).
Proof.
  cbn zeta. split; [exact (new_ns_wf _ he_valid)|]. split; [apply new_ns_ordered|].
  split; [exists [233]%N; split; [repeat constructor; unfold scalar; lia|reflexivity]|].
  split; [repeat constructor; discriminate|]. vm_compute. discriminate.
Qed.

(** Exact alignments when every character is replaced by a text and further texts are
    added after it (NFD and the like): each output byte points to its character, and
    each original byte to the output of its character. *)
Theorem C25_expansion : forall xs,
  Forall (fun x => scalar (fst x)) xs -> Forall exp_ok xs ->
  exists n', transform (new_ns (encode (map fst xs))) (flat_map exp_items xs) 0 = Ok n' /\
    ns_orig n' = encode (map fst xs) /\ ns_norm n' = exp_text xs /\
    ns_al n' = exp_al xs 0 /\ ns_ao_values n' = exp_ao xs 0.
Proof. exact expansion_exact. Qed.
Print Assumptions C25_expansion.
Definition accents : list expansion :=
  [(104, ([104], [])); (233, ([101], [encode_rune 769])); (108, ([108], []))]%N.
Example C25_expansion_ex : Forall (fun x => scalar (fst x)) accents /\ Forall exp_ok accents /\
  exp_al accents 0 = [(0, 1); (1, 3); (1, 3); (1, 3); (3, 4)] /\
  exp_ao accents 0 = [(0, 1); (1, 4); (1, 4); (4, 5)].
Proof.
  split; [repeat constructor; cbn; unfold scalar; lia|]. split; [|split; reflexivity].
  assert (V : forall r, (r < 128)%N -> valid_utf8 [r]).
  { intros r H. exists [r]. split; [repeat constructor; unfold scalar; lia|]. unfold encode, encode_rune, scalarb. cbn.
    replace (r <? 128)%N with true by lia. replace (r <? 55296)%N with true by lia. reflexivity. }
  repeat constructor; cbn; try discriminate; try (apply V; lia). exists [769]%N.
  split; [repeat constructor; unfold scalar; lia|reflexivity].
Qed.

(** The same for a part of the text: what stands before it keeps its ranges, what stands
    behind it is shifted by exactly the change of length. *)
Theorem C25_expansion_range : forall pre xs post,
  Forall scalar pre -> Forall (fun x => scalar (fst x)) xs -> Forall scalar post -> Forall exp_ok xs ->
  exists n', transform_range (new_ns (encode (pre ++ map fst xs ++ post)))
      (Rng (zlen (encode pre)) (zlen (encode (pre ++ map fst xs))) OnNormalized) (flat_map exp_items xs) 0 = Ok n' /\
    ns_orig n' = encode (pre ++ map fst xs ++ post) /\
    ns_norm n' = encode pre ++ exp_text xs ++ encode post /\
    ns_al n' = exp_al (same pre ++ xs ++ same post) 0 /\
    ns_ao_values n' = exp_ao (same pre ++ xs ++ same post) 0.
Proof. exact expansion_range. Qed.
Print Assumptions C25_expansion_range.
Example C25_expansion_range_ex : exp_ao (same [120%N] ++ accents ++ same [233; 121]%N) 0 =
  [(0, 1); (1, 2); (2, 5); (2, 5); (5, 6); (6, 8); (6, 8); (8, 9)].
Proof. reflexivity. Qed.

(** Exact alignments when single-byte characters are dropped or replaced. *)
Theorem C25_edit_partial : forall es items initial,
  Forall single_byte (map fst es) -> Forall (fun e => forall s, snd e = Some s -> valid_utf8 s) es ->
  edit_items es = (items, initial) ->
  exists n', transform (new_ns (map fst es)) items initial = Ok n' /\
    ns_orig n' = map fst es /\ ns_norm n' = edit_text es /\
    ns_al n' = edit_al es 0 /\ ns_ao_values n' = edit_ao es 0.
Proof. exact edit_exact. Qed.
Print Assumptions C25_edit_partial.
Example C25_edit_ex : let es := [(32%N, None); (97%N, Some (encode_rune 233)); (32%N, None); (98%N, Some [98%N])] in
  edit_items es = ([(encode_rune 233, -1); ([98%N], 0)], 1) /\
  edit_al es 0 = [(1, 2); (1, 2); (3, 4)] /\ edit_ao es 0 = [(0, 0); (0, 2); (2, 2); (2, 3)].
Proof. repeat split. Qed.

(** Refuted for every text that is not UTF-8: a fresh string has more ranges than bytes. *)
Theorem C25_invalid_utf8_refuted : forall s, ~ valid_utf8 s -> ~ aligned (new_ns s).
Proof. exact new_ns_invalid. Qed.
Print Assumptions C25_invalid_utf8_refuted.
Example C25_invalid_ex : ~ valid_utf8 [97; 255]%N.
Proof. intros V. apply valid_utf8_runes in V. discriminate V. Qed.

(** The ranges themselves may be wrong: dropping the two-byte first character of "éabc"
    aligns 'a' with the original 'a', but 'b' and 'c' with 'c'. *)
Theorem C25_wrong_ranges_refuted :
  show (ns_filter (fun c => negb (c =? 233)%N) (new_ns (encode [233; 97; 98; 99]%N))) =
  Ok ([97; 98; 99]%N, [(2, 3); (4, 5); (4, 5)], [(0, 0); (0, 0); (2, 2); (3, 4); (0, 0)]).
Proof. vm_compute. reflexivity. Qed.
Print Assumptions C25_wrong_ranges_refuted.

(** ** C26 *)

(** Lowercase and Uppercase keep the alignments well-formed exactly when the mapping
    keeps the length of the text. *)
Theorem C26_case_mapping_partial : forall f n,
  wf n -> (wf (case_map f n) <-> length (f (ns_norm n)) = length (ns_norm n)).
Proof. exact case_map_wf. Qed.
Print Assumptions C26_case_mapping_partial.

(** With a longer text, slicing the whole text panics. *)
Theorem C26_longer_refuted : forall f n,
  wf n -> zlen (ns_norm n) < zlen (f (ns_norm n)) ->
  ns_slice (case_map f n) (Rng 0 (zlen (f (ns_norm n))) OnNormalized) = Panic.
Proof. exact case_map_longer. Qed.
Print Assumptions C26_longer_refuted.
(** U+023A (two bytes) in lower case is U+2C65 (three bytes). *)
Definition lower_023a (s : str) : str := encode (map (fun c => if (c =? 570)%N then 11365%N else c) (runes s)).
Example C26_ex : let n := new_ns (encode [570; 97]%N) in
  zlen (ns_norm n) < zlen (lower_023a (ns_norm n)) /\
  ns_slice (case_map lower_023a n) (Rng 0 4 OnNormalized) = Panic /\
  ~ aligned (case_map lower_023a n).
Proof. split; [reflexivity|]. split; [reflexivity|]. intros [H _]. discriminate H. Qed.

(** ** C27 *)

(** A non-empty range of the normalized text is converted to a range inside the original
    text that covers the ranges of all its bytes. *)
Theorem C27_convert_partial : forall n s e,
  wf n -> ordered (ns_al n) -> 0 <= s -> s < e -> e <= zlen (ns_norm n) ->
  exists a b, convert_offset n (Rng s e OnNormalized) = Ok (Some (Rng a b OnOriginal)) /\
    0 <= a /\ a <= b /\ b <= zlen (ns_orig n) /\
    forall i p, s <= i < e -> nth_error (ns_al n) (Z.to_nat i) = Some p -> a <= fst p /\ snd p <= b.
Proof. exact convert_normalized_inside. Qed.
Print Assumptions C27_convert_partial.

(** Slice between characters returns the selected text, the converted part of the
    original and the shifted alignments; the result is well-formed again. *)
Theorem C27_slice_partial : forall n s e,
  wf n -> ordered (ns_al n) -> 0 <= s -> s < e -> e <= zlen (ns_norm n) ->
  boundary (ns_norm n) s -> boundary (ns_norm n) e ->
  exists a b m, convert_offset n (Rng s e OnNormalized) = Ok (Some (Rng a b OnOriginal)) /\
    ns_slice n (Rng s e OnNormalized) = Ok (Some m) /\
    ns_norm m = part s e (ns_norm n) /\ ns_orig m = part a b (ns_orig n) /\
    ns_al m = map (fun p => (fst p - a, snd p - a)) (part s e (ns_al n)) /\
    ns_shift m = ns_shift n + a /\ wf m /\ ordered (ns_al m).
Proof. exact slice_normalized. Qed.
Print Assumptions C27_slice_partial.
Example C27_ex : let n := new_ns (encode he) in
  wf n /\ ordered (ns_al n) /\ boundary (ns_norm n) 1 /\ boundary (ns_norm n) 4 /\
  (do o <- ns_slice n (Rng 1 4 OnNormalized);
   match o with Some m => show (Ok m) | None => Panic end) =
   Ok ([233; 44]%N, [(0, 2); (0, 2); (2, 3)], [(0, 2); (0, 2); (2, 3)]).
Proof.
  cbn zeta. split; [exact (new_ns_wf _ he_valid)|]. split; [apply new_ns_ordered|].
  split; [right; right; eexists; split; [lia|split; reflexivity]|].
  split; [right; right; eexists; split; [lia|split; reflexivity]|]. reflexivity.
Qed.

(** A range that cuts a character is refused (nil). *)
Theorem C27_slice_inside_char : forall n s e,
  0 <= s -> s < e -> e <= zlen (ns_norm n) ->
  ~ (boundary (ns_norm n) s /\ boundary (ns_norm n) e) ->
  ns_slice n (Rng s e OnNormalized) = Ok None.
Proof. exact slice_inside_char. Qed.
Print Assumptions C27_slice_inside_char.
Example C27_inside_ex : ns_slice (new_ns (encode he)) (Rng 0 2 OnNormalized) = Ok None.
Proof. reflexivity. Qed.

(** Range returns the selected text. *)
Theorem C27_range : forall n s e, 0 <= s -> s <= e -> e <= zlen (ns_norm n) ->
  ns_range n (Rng s e OnNormalized) = Ok (part s e (ns_norm n)).
Proof. exact range_normalized. Qed.
Print Assumptions C27_range.

(** Refuted for empty ranges: they are returned unconverted, which may lie outside the
    original text, and slicing an empty range at the end of any text panics. *)
Theorem C27_convert_empty_refuted : forall n s, 0 <= s <= zlen (ns_norm n) ->
  convert_offset n (Rng s s OnNormalized) = Ok (Some (Rng s s OnNormalized)).
Proof. exact convert_empty. Qed.
Print Assumptions C27_convert_empty_refuted.
Example C27_convert_empty_ex :
  (do n <- ns_append [98; 99]%N (new_ns [97]%N); convert_offset n (Rng 3 3 OnNormalized)) = Ok (Some (Rng 3 3 OnNormalized)).
Proof. reflexivity. Qed.
Theorem C27_slice_empty_refuted : forall n, ns_norm n <> [] ->
  ns_slice n (Rng (zlen (ns_norm n)) (zlen (ns_norm n)) OnNormalized) = Panic.
Proof. exact slice_empty_end. Qed.
Print Assumptions C27_slice_empty_refuted.

(** From the original to the normalized text the converted range may cut a character:
    after RStrip of "cé ", the range of 'é' is converted to half of it. *)
Theorem C27_from_original_refuted :
  (do n <- lrstrip is_space false true (new_ns (encode [99; 233; 32]%N));
   convert_offset n (Rng 1 3 OnOriginal)) = Ok (Some (Rng 1 2 OnNormalized)).
Proof. vm_compute. reflexivity. Qed.
Print Assumptions C27_from_original_refuted.

(** ** C28 *)

(** Strip of a fresh text removes the white space at the chosen ends.  Missing: the
    cases in which it panics. *)
Theorem C28_strip_partial : forall sp l r s n',
  valid_utf8 s -> lrstrip sp l r (new_ns s) = Ok n' -> ns_norm n' = encode (stripped sp l r (runes s)).
Proof. exact strip_text. Qed.
Print Assumptions C28_strip_partial.
(** On single-byte text it succeeds, with exact alignments. *)
Theorem C28_strip_single_byte_partial : forall sp l r rs,
  Forall single_byte rs -> stripped sp l r rs <> [] ->
  exists pre post n', rs = pre ++ stripped sp l r rs ++ post /\
    lrstrip sp l r (new_ns rs) = Ok n' /\ ns_orig n' = rs /\ ns_norm n' = stripped sp l r rs /\
    ns_al n' = edit_al (keep_mid pre (stripped sp l r rs) post) 0 /\
    ns_ao_values n' = edit_ao (keep_mid pre (stripped sp l r rs) post) 0.
Proof. exact strip_exact. Qed.
Print Assumptions C28_strip_single_byte_partial.
Example C28_strip_ex : let s := [32; 32; 97; 32; 98; 32]%N in
  Forall single_byte s /\ stripped is_space true true s = [97; 32; 98]%N /\
  show (lrstrip is_space true true (new_ns s)) =
    Ok ([97; 32; 98]%N, [(2, 3); (3, 4); (4, 5)], [(0, 0); (0, 0); (0, 1); (1, 2); (2, 3); (3, 3)]).
Proof. split; [repeat constructor; unfold single_byte; lia|]. split; reflexivity. Qed.
(** Two em spaces before the text make Strip panic. *)
Theorem C28_strip_panics_refuted :
  lrstrip is_space true true (new_ns (encode [8195; 8195; 97; 32]%N)) = Panic.
Proof. vm_compute. reflexivity. Qed.
Print Assumptions C28_strip_panics_refuted.

(** Filter keeps the characters that satisfy the predicate. *)
Theorem C28_filter_partial : forall f s n',
  valid_utf8 s -> ns_filter f (new_ns s) = Ok n' -> ns_norm n' = encode (filter f (runes s)).
Proof. exact filter_text. Qed.
Print Assumptions C28_filter_partial.
Theorem C28_filter_single_byte_partial : forall f rs, Forall single_byte rs ->
  exists n', ns_filter f (new_ns rs) = Ok n' /\ ns_orig n' = rs /\ ns_norm n' = filter f rs /\
    ns_al n' = edit_al (keep_if f rs) 0 /\ ns_ao_values n' = edit_ao (keep_if f rs) 0.
Proof. exact filter_exact. Qed.
Print Assumptions C28_filter_single_byte_partial.
Example C28_filter_ex : show (ns_filter (fun c => negb (c =? 45)%N) (new_ns dashes)) =
  Ok ([97; 98; 99]%N, [(0, 1); (3, 4); (5, 6)], [(0, 1); (1, 1); (1, 1); (1, 2); (2, 2); (2, 3)]).
Proof. reflexivity. Qed.

(** Prepend and Append put the text before and after any non-empty text (the first, or
    the last, character not being NUL) and leave the empty text alone. *)
Theorem C28_prepend : forall p rs n,
  wf n -> ordered (ns_al n) -> ns_norm n = encode rs -> Forall scalar rs -> hd 1%N rs <> 0%N ->
  exists n', ns_prepend p n = Ok n' /\
    ns_norm n' = (if (length rs =? 0)%nat then [] else encode (runes p) ++ ns_norm n) /\
    wf n' /\ ordered (ns_al n').
Proof. exact prepend_ok. Qed.
Print Assumptions C28_prepend.
Theorem C28_append : forall p rs n,
  wf n -> ordered (ns_al n) -> ns_norm n = encode rs -> Forall scalar rs -> last rs 1%N <> 0%N ->
  exists n', ns_append p n = Ok n' /\
    ns_norm n' = (if (length rs =? 0)%nat then [] else ns_norm n ++ encode (runes p)) /\
    wf n' /\ ordered (ns_al n').
Proof. exact append_ok. Qed.
Print Assumptions C28_append.
Example C28_prepend_ex :
  show (ns_prepend [62; 32]%N (new_ns (encode [233; 98]%N))) =
    Ok ([62; 32; 233; 98]%N, [(0, 2); (0, 2); (0, 2); (0, 2); (2, 3)], [(0, 4); (0, 4); (4, 5)]) /\
  show (ns_append [33]%N (new_ns (encode [97; 233]%N))) =
    Ok ([97; 233; 33]%N, [(0, 1); (1, 3); (1, 3); (1, 3)], [(0, 1); (1, 4); (1, 4)]) /\
  hd 1%N [233; 98]%N <> 0%N /\ last [97; 233]%N 1%N <> 0%N.
Proof. split; [reflexivity|]. split; [reflexivity|]. split; discriminate. Qed.

(** Replace puts the content in place of every match. *)
Theorem C28_replace_partial : forall p content n ms n',
  wf n -> valid_utf8 content -> find_matches p (ns_norm n) = Ok ms -> partition 0 (zlen (ns_norm n)) ms ->
  ns_replace p content n = Ok n' -> ns_norm n' = replaced (ns_norm n) content ms.
Proof. exact replace_text. Qed.
Print Assumptions C28_replace_partial.
Example C28_replace_ex :
  find_matches (PRune 45) dashes = Ok [((0, 1), false); ((1, 2), true); ((2, 3), true); ((3, 4), false); ((4, 5), true); ((5, 6), false)] /\
  show (ns_replace (PRune 45) [61; 61]%N (new_ns dashes)) =
  Ok ([97; 61; 61; 61; 61; 98; 61; 61; 99]%N,
      [(0, 1); (1, 2); (1, 2); (2, 3); (2, 3); (3, 4); (4, 5); (4, 5); (5, 6)],
      [(0, 1); (1, 3); (3, 5); (5, 6); (6, 8); (8, 9)]).
Proof. split; vm_compute; reflexivity. Qed.

(** Clear empties single-byte text... *)
Theorem C28_clear_single_byte_partial : forall rs, Forall single_byte rs ->
  exists n', ns_clear (new_ns rs) = Ok n' /\ ns_orig n' = rs /\ ns_norm n' = [] /\
    ns_ao_values n' = repeat (0, 0) (length rs).
Proof. exact clear_exact. Qed.
Print Assumptions C28_clear_single_byte_partial.
(** ... and ends the process on every text with a longer character. *)
Theorem C28_clear_refuted : forall s,
  valid_utf8 s -> (length (runes s) < length s)%nat -> ns_clear (new_ns s) = Fatal.
Proof. exact clear_fatal. Qed.
Print Assumptions C28_clear_refuted.
Example C28_clear_ex : valid_utf8 (encode he) /\ (length (runes (encode he)) < length (encode he))%nat /\ ns_clear (new_ns (encode he)) = Fatal.
Proof. split; [exact he_valid|]. split; [vm_compute; lia|reflexivity]. Qed.
