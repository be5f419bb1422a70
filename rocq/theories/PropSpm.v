(** Properties of the precompiled character map and its normalizer (C51). *)
From Verif Require Import Base BaseProofs Utf8Model Utf8Proofs NormalizedModel SpmModel SpmSpec SpmProofs PrecompiledProofs.
From Coq Require Import Sorted.
Open Scope Z_scope.

(** For the examples: a trie that maps "a" to 0 and "ab" to 2, and the texts "x", "yz". *)
Definition ex_arr : list N :=
  map (fun i => if i =? 97 then 1024 + 256 + 97 else if i =? 96 then 2147483648
                else if i =? 2 then 1024 + 256 + 98 else if i =? 3 then 2147483648 + 2 else 0)%N
    (map N.of_nat (seq 0 256)).
Definition ex_text : str := [120; 0; 121; 122; 0]%N.

(** ** Parsing *)

(** A blob is parsed into its units and its texts. *)
Theorem C51_parse : forall units text,
  Forall (fun u => (u < 2 ^ 32)%N) units -> (4 * N.of_nat (length units) < 2 ^ 32)%N ->
  parse (blob units text) = Ok (text, units).
Proof. exact parse_blob. Qed.
Print Assumptions C51_parse.
Example C51_parse_meets : parse (blob ex_arr ex_text) = Ok (ex_text, ex_arr).
Proof. vm_compute. reflexivity. Qed.

(** Whatever is parsed came from such a blob, and a blob that is cut short panics. *)
Theorem C51_parse_only : forall data,
  all_bytes data ->
  (forall text units, parse data = Ok (text, units) ->
     exists size, (size / 4 = N.of_nat (length units))%N /\ data = (bytes32 size ++ flat_map bytes32 units ++ text)%list) /\
  ((length data < 4)%nat -> parse data = Panic) /\
  (forall size rest, data = (bytes32 size ++ rest)%list -> (size < 2 ^ 32)%N ->
     (N.of_nat (length rest) < 4 * (size / 4))%N -> parse data = Panic).
Proof.
  intros data B. split; [intros text units; now apply parse_inv|]. split; [apply parse_short|].
  intros size rest -> S0 H. now apply parse_cut.
Qed.
Print Assumptions C51_parse_only.
Example C51_parse_only_meets : parse [8; 0; 0; 0; 1; 2; 3; 4; 5]%N = Panic /\ all_bytes [8; 0; 0; 0; 1; 2; 3; 4; 5]%N.
Proof. split; [reflexivity|]. repeat constructor. Qed.

(** ** Lookup *)

(** Units are decoded by the published layout. *)
Theorem C51_units : forall u, (u < 4294967296)%N ->
  (u_leaf u = true <-> unit_leaf u) /\ u_value u = Z.of_N (unit_value u) /\
  u_label u = unit_label u /\ u_offset u = unit_offset u.
Proof. exact unit_layout. Qed.
Print Assumptions C51_units.
Example C51_units_meets :
  (2147485441 + 512 < 4294967296)%N /\ unit_leaf 1793 /\ unit_offset 1953 = 256%N /\ unit_label 2147485441 = (2147483648 + 1)%N.
Proof. vm_compute. auto. Qed.

(** The values found are those of all entries that are prefixes of the key, shortest first. *)
Theorem C51_lookup : forall arr key rs,
  common_prefix_search arr key = Ok rs ->
  exists ps, Forall2 (entry arr) ps rs /\
    (forall p, In p ps <-> prefix_of p key /\ exists v, entry arr p v) /\ StronglySorted shorter ps.
Proof. exact search_spec. Qed.
Print Assumptions C51_lookup.

(** For a well-formed trie the lookup never reads outside it, whatever the key. *)
Theorem C51_lookup_safe : forall arr key,
  well_formed arr -> all_bytes key -> exists rs, common_prefix_search arr key = Ok rs.
Proof. exact search_safe. Qed.
Print Assumptions C51_lookup_safe.

Lemma ex_well_formed : well_formed ex_arr.
Proof.
  assert (L : length ex_arr = 256%nat) by (vm_compute; reflexivity).
  assert (C : forallb (fun i => match nth_error ex_arr i with
     | Some u => negb (u_label u <? 256)%N || (N.to_nat (N.lxor (N.of_nat i) (u_offset u)) <? 256)%nat | None => false end) (seq 0 256) = true)
    by (vm_compute; reflexivity).
  split; [exists 1%nat; rewrite L; reflexivity|]. split; [intros H; rewrite H in L; discriminate|]. rewrite L. split.
  - intros u H. vm_compute in H. injection H as <-. vm_compute. lia.
  - intros i u H Lu. rewrite forallb_forall in C.
    assert (Hi : (N.to_nat i < 256)%nat).
    { rewrite <- L. apply nth_error_Some. unfold has_unit in H. congruence. }
    specialize (C (N.to_nat i) ltac:(apply in_seq; lia)). unfold has_unit in H. rewrite H in C.
    apply orb_true_iff in C as [C|C]; [apply negb_true_iff, N.ltb_ge in C; lia|]. apply Nat.ltb_lt in C.
    now rewrite N2Nat.id in C.
Qed.
Example C51_lookup_meets : well_formed ex_arr /\ common_prefix_search ex_arr [97; 98; 99]%N = Ok [0; 2] /\
  common_prefix_search ex_arr [98]%N = Ok [] /\ common_prefix_search ex_arr [97; 0; 98]%N = Ok [0].
Proof. split; [exact ex_well_formed|]. repeat split; vm_compute; reflexivity. Qed.

(** Refuted without that: an empty trie, and every trie whose root has a child outside. *)
Theorem C51_lookup_refuted :
  (forall key, common_prefix_search [] key = Panic) /\
  forall arr u c key, has_unit arr 0 u -> c <> 0%N -> (length arr <= N.to_nat (N.lxor (u_offset u) c))%nat ->
    common_prefix_search arr (c :: key) = Panic.
Proof. split; [reflexivity|exact search_outside]. Qed.
Print Assumptions C51_lookup_refuted.
Example C51_lookup_refuted_meets : common_prefix_search [0]%N [97]%N = Panic.
Proof. reflexivity. Qed.

(** The text of a lookup is the one of the shortest entry, up to the next NUL. *)
Theorem C51_transform : forall arr text chunk,
  well_formed arr -> values_inside arr text -> all_bytes chunk ->
  exists out, spm_transform arr text chunk = Ok out /\
    ((out = [] /\ forall p v, prefix_of p chunk -> ~ entry arr p v) \/
     exists p v, prefix_of p chunk /\ entry arr p v /\
       (forall q w, prefix_of q chunk -> entry arr q w -> (length p <= length q)%nat) /\
       exists before after, text = (before ++ out ++ after)%list /\ zlen before = v /\ ~ In 0%N out /\
         (after = [] \/ exists r, after = 0%N :: r)).
Proof. exact transform_spec. Qed.
Print Assumptions C51_transform.

Lemma path_leaf arr from p to leaf : path arr from p to leaf ->
  exists i u, has_unit arr i u /\ to = N.lxor i (u_offset u) /\ leaf = u_leaf u.
Proof. induction 1 as [from c u N0 H L|from c u p to leaf N0 H L P IH]; [|exact IH]. eauto. Qed.

Lemma ex_inside : values_inside ex_arr ex_text.
Proof.
  assert (C : forallb (fun i => match nth_error ex_arr i with
     | Some u => negb (u_leaf u) || match nth_error ex_arr (N.to_nat (N.lxor (N.of_nat i) (u_offset u))) with
                                    | Some w => u_value w <=? 5 | None => true end
     | None => true end) (seq 0 256) = true) by (vm_compute; reflexivity).
  intros p v [root [to [w [_ [P [W ->]]]]]]. apply path_leaf in P as [i [u [U [-> Lf]]]].
  assert (L : length ex_arr = 256%nat) by (vm_compute; reflexivity).
  assert (Hi : (N.to_nat i < 256)%nat).
  { rewrite <- L. apply nth_error_Some. unfold has_unit in U. congruence. }
  rewrite forallb_forall in C. specialize (C (N.to_nat i) ltac:(apply in_seq; lia)). unfold has_unit in *.
  rewrite U, <- Lf, N2Nat.id, W in C. cbn [negb orb] in C. apply Z.leb_le in C. exact C.
Qed.
Example C51_transform_meets : well_formed ex_arr /\ values_inside ex_arr ex_text /\
  spm_transform ex_arr ex_text [97; 98]%N = Ok [120]%N /\ spm_transform ex_arr ex_text [98]%N = Ok [].
Proof. split; [exact ex_well_formed|]. split; [exact ex_inside|]. split; vm_compute; reflexivity. Qed.

(** ** NormalizeString *)

(** Every grapheme has a rewriting. *)
Theorem C51_rewriting : forall mn arr text g,
  well_formed arr -> values_inside arr text -> all_bytes g -> exists o, rewritten mn arr text g o.
Proof. exact rewritten_total. Qed.
Print Assumptions C51_rewriting.

(** Proved: if no grapheme, except possibly the last, has an entry of its own, every grapheme is
    rewritten.  What is missing: the other texts, see below. *)
Theorem C51_normalize_partial : forall mn graphemes arr text s init outs,
  (graphemes s = init \/ exists g, graphemes s = init ++ [g])%list -> Forall (plain arr text) init ->
  Forall2 (rewritten mn arr text) (graphemes s) outs ->
  normalize_string mn graphemes arr text s = Ok (concat outs).
Proof.
  intros mn graphemes arr text s init outs H P F. unfold normalize_string. destruct H as [E|[g E]]; rewrite E in *.
  - rewrite (normalize_none mn arr text init outs [] P F). reflexivity.
  - apply Forall2_app_inv_l in F as [o1 [o2 [F1 [F2 ->]]]]. inversion F2 as [|x y a b R F3]; subst. inversion F3; subst.
    rewrite concat_app. cbn [concat]. rewrite app_nil_r.
    assert (D : plain arr text g \/ ~ plain arr text g).
    { destruct R as [out L Eo N0|outs Pl _]; [right; intros Q; specialize (Q L); congruence|left; exact Pl]. }
    destruct D as [D|D].
    + rewrite (normalize_none mn arr text (init ++ [g])%list (o1 ++ [y])%list []).
      * rewrite concat_app. cbn [concat]. now rewrite app_nil_r.
      * apply Forall_app. split; [exact P|]. constructor; [exact D|constructor].
      * apply Forall2_app; [exact F1|]. constructor; [exact R|constructor].
    + rewrite (normalize_stops mn arr text init o1 g y [] [] P D F1 R). reflexivity.
Qed.
Print Assumptions C51_normalize_partial.
Definition ex_graphemes (s : str) : list str := map (fun c => [c]) s.
Example C51_normalize_meets : normalize_string (fun _ => false) ex_graphemes ex_arr ex_text [99; 98; 97]%N = Ok [99; 98; 120]%N /\
  plain ex_arr ex_text [99]%N /\ plain ex_arr ex_text [98]%N.
Proof. split; [vm_compute; reflexivity|]. split; intros _; vm_compute; reflexivity. Qed.

(** Refuted for all others: everything after the first grapheme that has an entry is dropped. *)
Theorem C51_normalize_refuted : forall mn graphemes arr text s pre g post outs o,
  (graphemes s = pre ++ g :: post)%list -> Forall (plain arr text) pre -> ~ plain arr text g ->
  Forall2 (rewritten mn arr text) pre outs -> rewritten mn arr text g o ->
  normalize_string mn graphemes arr text s = Ok (concat outs ++ o)%list.
Proof.
  intros mn graphemes arr text s pre g post outs o E P D F R. unfold normalize_string. rewrite E.
  exact (normalize_stops mn arr text pre outs g o post [] P D F R).
Qed.
Print Assumptions C51_normalize_refuted.
Example C51_normalize_refuted_meets :
  normalize_string (fun _ => false) ex_graphemes ex_arr ex_text [99; 97; 98; 99; 100]%N = Ok [99; 120]%N.
Proof. vm_compute. reflexivity. Qed.

(** ** The normalizer *)

(** The normalizer leaves the text alone or rewrites all graphemes, but it looks up the beginning
    of the grapheme for each of its characters. *)
Theorem C51_normalizer_partial : forall mn graphemes arr text s n',
  valid_utf8 s -> (forall chunk out, spm_transform arr text chunk = Ok out -> valid_utf8 out) ->
  precompiled_normalize mn graphemes arr text (new_ns s) = Ok n' ->
  n' = new_ns s \/
  exists outs, Forall2 (normalizer_rewritten mn arr text) (graphemes s) outs /\ ns_norm n' = concat outs /\ ns_orig n' = s.
Proof. intros mn graphemes arr text s n'. exact (precompiled_text mn arr text graphemes s n'). Qed.
Print Assumptions C51_normalizer_partial.
Example C51_normalizer_meets :
  (do n <- precompiled_normalize (fun _ => false) ex_graphemes ex_arr ex_text (new_ns [99; 97; 98; 97]%N); Ok (ns_norm n)) = Ok [99; 120; 98; 120]%N.
Proof. vm_compute. reflexivity. Qed.

(** The beginning of the grapheme: of six or more characters of one byte, the first with an
    entry, all are rewritten like the first. *)
Theorem C51_normalizer_refuted : forall mn arr text c rs out o,
  6 <= zlen (c :: rs) -> Forall (fun r => (r < 128)%N /\ mn r = false) (c :: rs) ->
  spm_transform arr text [c] = Ok out -> normalize_mn mn out <> [] ->
  normalizer_rewritten mn arr text (c :: rs) o -> o = concat (map (fun _ => normalize_mn mn out) (c :: rs)).
Proof.
  intros mn arr text c rs out o L A E N0 R. inversion R as [o0 L0 _ _|outs _ F]; subst; [lia|]. clear R.
  assert (Vc : valid_utf8 (c :: rs)).
  { apply ascii_valid. eapply Forall_impl; [|exact A]. cbn beta. tauto. }
  assert (Ru : runes (c :: rs) = c :: rs).
  { assert (X : encode (c :: rs) = c :: rs).
    { clear - A. induction A as [|r l [H _] A IH]; [reflexivity|]. rewrite encode_cons, IH. unfold encode_rune.
      destruct (N.ltb_spec r 0x80); [reflexivity|lia]. }
    rewrite <- X at 1. apply runes_encode. eapply Forall_impl; [|exact A]. cbn beta. intros r [H _]. left. lia. }
  assert (Mn : normalize_mn mn (c :: rs) = c :: rs).
  { unfold normalize_mn. rewrite Ru. clear - A. induction A as [|r l [H M] A IH]; [reflexivity|]. cbn [map concat]. rewrite IH, M.
    unfold encode_rune. destruct (N.ltb_spec r 0x80); [reflexivity|lia]. }
  rewrite Mn, Ru in F.
  assert (G : forall l outs', Forall (fun r => (r < 128)%N /\ mn r = false) l ->
     Forall2 (from_start mn arr text (c :: rs)) l outs' -> concat outs' = concat (map (fun _ => normalize_mn mn out) l)).
  { intros l outs' Al F'. induction F' as [|r o' l outs' H F' IH]; [reflexivity|]. inversion Al as [|x y [A1 _] A2]; subst.
    cbn [map concat]. rewrite IH by exact A2. f_equal.
    assert (Le : length (encode_rune r) = 1%nat) by (unfold encode_rune; destruct (N.ltb_spec r 0x80); [reflexivity|lia]).
    inversion H as [out1 E1 N1|out1 E1 N1]; subst; rewrite Le in E1; cbn [firstn] in E1; rewrite E in E1; injection E1 as <-; congruence. }
  apply G; assumption.
Qed.
Print Assumptions C51_normalizer_refuted.
Example C51_normalizer_refuted_meets :
  (do n <- precompiled_normalize (fun r => r =? 769)%N (fun s => [s]) ex_arr ex_text (new_ns [97; 97; 98; 99; 204; 129]%N);
   Ok (ns_norm n)) = Ok (repeat 120%N 10).
Proof. vm_compute. reflexivity. Qed.

(** Refuted: the new text is not aligned with the characters it came from.  When no entry is
    longer than what it replaces, all of it is aligned with the last character of the text. *)
Theorem C51_alignment_refuted : forall mn graphemes arr text s n' p,
  (forall r, mn r = false) ->
  (forall chunk out, spm_transform arr text chunk = Ok out -> (length (runes out) <= length (runes chunk))%nat) ->
  valid_utf8 s -> Forall (fun c => c <> 0%N) (runes s) -> s <> [] ->
  zindex (create_aligns s) (zlen s - 1) = Ok p ->
  precompiled_normalize mn graphemes arr text (new_ns s) = Ok n' ->
  n' = new_ns s \/ Forall (eq p) (ns_al n').
Proof. intros mn graphemes arr text s n' p NoMn Short. exact (precompiled_alignments mn arr text NoMn Short graphemes s n' p). Qed.
Print Assumptions C51_alignment_refuted.
Lemma ex_short : forall chunk out, spm_transform ex_arr ex_text chunk = Ok out -> (length (runes out) <= length (runes chunk))%nat.
Proof.
  intros [|c rest] out E.
  - vm_compute in E. injection E as <-. reflexivity.
  - assert (Hc : (length (runes (c :: rest)) >= 1)%nat).
    { unfold runes. rewrite runes_w_cons by discriminate. cbn. lia. }
    assert (Out : out = [] \/ out = [120]%N); [|destruct Out as [->| ->]; [cbn|change (length (runes [120%N])) with 1%nat]; lia].
    revert E. unfold spm_transform, common_prefix_search.
    change (unit_at ex_arr 0) with (Ok 0%N). cbn [bind]. change (u_offset 0) with 0%N. cbn [search_from].
    destruct (N.eqb_spec c 0); [cbn; intros [= <-]; now left|]. rewrite N.lxor_0_l.
    destruct (N.eq_dec c 97) as [->|N97].
    + change (unit_at ex_arr 97) with (Ok 1377%N). cbn [bind]. change (negb (u_label 1377 =? 97)%N) with false. cbv iota.
      change (u_leaf 1377) with true. cbv iota. change (N.lxor 97 (u_offset 1377)) with 96%N.
      change (unit_at ex_arr 96) with (Ok 2147483648%N). cbn [bind].
      destruct (search_from ex_arr 96 rest); cbn [bind]; try discriminate. change (u_value 2147483648) with 0.
      vm_compute. intros [= <-]. now right.
    + destruct (N.ltb_spec c 256) as [Lc|Lc].
      * assert (Q : forallb (fun i => (i =? 0)%nat || (i =? 97)%nat || match nth_error ex_arr i with Some u => negb (u_label u =? N.of_nat i)%N | None => false end) (seq 0 256) = true)
          by (vm_compute; reflexivity).
        rewrite forallb_forall in Q. specialize (Q (N.to_nat c) ltac:(apply in_seq; lia)).
        destruct (Nat.eqb_spec (N.to_nat c) 0); [lia|]. destruct (Nat.eqb_spec (N.to_nat c) 97); [lia|]. cbn [orb] in Q.
        destruct (nth_error ex_arr (N.to_nat c)) as [u|] eqn:Eu; [|discriminate].
        rewrite (unit_at_ok ex_arr c u Eu). cbn [bind]. rewrite N2Nat.id in Q. rewrite Q. cbn [bind]. intros [= <-]. now left.
      * rewrite unit_at_panic; [discriminate|]. assert (L : length ex_arr = 256%nat) by (vm_compute; reflexivity). lia.
Qed.
Example C51_alignment_refuted_meets :
  (do n <- precompiled_normalize (fun _ => false) ex_graphemes ex_arr ex_text (new_ns [99; 97; 98]%N); Ok (ns_norm n, ns_al n))
  = Ok ([99; 120; 98]%N, [(2, 3); (2, 3); (2, 3)]).
Proof. vm_compute. reflexivity. Qed.
