(** C70: the Unicode normalizers.  The library golang.org/x/text/unicode/norm is trusted to
    decide and to decompose ([library_at]); [nf] are the Unicode normal forms. *)
From Verif Require Import Base BaseProofs Utf8Model Utf8Proofs SliceModel PatternModel NormalizedModel NormalizedSpec NormalizedProofs NormalizedExactProofs
  AddedVocabModel AddedVocabSpec AddedFindProofs PreTokenizedModel PipelineModel PipelineSpec PipelineProofs TokensSpec
  UnicodeNormModel UnicodeNormSpec UnicodeNormProofs PropPipeline PropAdded.
Open Scope Z_scope.

(** * A small library for the examples: e with acute accent, the ligature fi. *)
Definition toy_dec (f : form) (c : N) : list N * list (list N) :=
  if (c =? 233)%N then ([101; 769]%N, [])
  else if (c =? 64257)%N then match f with NFKD => ([105]%N, [[102]%N]) | _ => ([c], []) end
  else ([c], []).
Fixpoint toy_cut (f : form) (cs : list N) : list N * groups :=
  match cs with
  | [] => ([], [])
  | c :: cs' =>
      let '(ms, gs) := toy_cut f cs' in
      if (c =? 769)%N then (c :: ms, gs)
      else ([], (c :: ms, snd (toy_dec f c) ++ [fst (toy_dec f c) ++ ms]) :: gs)
  end.
Definition toy_groups (f : form) (cs : list N) : groups :=
  match toy_cut f cs with ([], gs) => gs | (ms, gs) => (ms, [ms]) :: gs end.
Fixpoint toy_compose (cs : list N) : list N :=
  match cs with
  | c :: cs' => match toy_compose cs' with
                | d :: r => if ((c =? 101) && (d =? 769))%N then 233%N :: r else c :: d :: r
                | [] => [c]
                end
  | [] => []
  end.
Definition toy_nf (f : form) (cs : list N) : list N :=
  match f with
  | NFD | NFKD => outcome (toy_groups f cs)
  | NFC | NFKC => toy_compose (outcome (toy_groups (decomposing f) cs))
  | OtherForm => cs
  end.
Definition same_chars (a b : list N) : bool := if list_eq_dec N.eq_dec a b then true else false.
Definition toy : norm_lib := NormLib (fun f s => same_chars (toy_nf f (runes s)) (runes s)) (fun f s => segments (toy_groups f (runes s))).

Lemma toy_cut_ok f : forall cs, Forall scalar cs ->
  groups_ok (snd (toy_cut f cs)) /\ Forall scalar (fst (toy_cut f cs)) /\ fst (toy_cut f cs) ++ source (snd (toy_cut f cs)) = cs.
Proof.
  induction 1 as [|c cs Hc F IH]; [repeat split; constructor|]. cbn [toy_cut]. destruct (toy_cut f cs) as [ms gs]. cbn [fst snd] in *.
  destruct IH as (G & S1 & S2). destruct (c =? 769)%N; cbn [fst snd].
  - split; [exact G|]. split; [now constructor|]. cbn. now rewrite S2.
  - split; [|split; [constructor|rewrite source_cons; cbn; now rewrite S2]]. constructor; [|exact G]. cbn [fst snd]. split; [discriminate|]. split; [intros X; now apply app_eq_nil in X|].
    assert (Sc : scalar 101 /\ scalar 769 /\ scalar 102 /\ scalar 105) by (unfold scalar; repeat split; lia).
    unfold toy_dec. destruct (c =? 233)%N; [|destruct (c =? 64257)%N; [destruct f|]]; cbn [fst snd app]; repeat (apply Forall_cons || apply Forall_nil || (split; [discriminate|])); tauto.
Qed.
Lemma toy_library cs : plain cs -> library_at toy toy_nf cs.
Proof.
  intros [Sc _]. split.
  - intros f _. cbn [toy is_normal]. rewrite runes_encode by assumption. unfold same_chars. destruct (list_eq_dec _ _ _); split; congruence.
  - intros f Hf. exists (toy_groups f cs). cbn [toy iter]. rewrite runes_encode by assumption.
    destruct (toy_cut_ok f cs Sc) as (G & S1 & S2). unfold toy_groups at 1 2. destruct (toy_cut f cs) as [ms gs] eqn:E. cbn [fst snd] in *.
    split; [|split; [|split; [reflexivity|destruct Hf as [-> | ->]; reflexivity]]].
    + destruct ms; [exact G|]. constructor; [|exact G]. cbn [fst snd]. split; [discriminate|]. split; [discriminate|]. constructor; [split; [discriminate|exact S1]|constructor].
    + destruct ms; [exact S2|]. exact S2.
Qed.
Lemma plain_dec cs : forallb (fun c => (0 <? c) && (c <? 55296) || (57343 <? c) && (c <? 1114112))%N cs = true -> plain cs.
Proof.
  intros H. rewrite forallb_forall in H. split; apply Forall_forall; intros c Hc; specialize (H c Hc); unfold scalar; lia.
Qed.
Definition cafe : list N := [99; 97; 102; 233; 33]%N.

(** * What the normalizers produce *)

(** NFD always, and NFKD when the text is not yet in that form, produce the named form. *)
Theorem C70_decomposed_partial : forall L nf f cs, plain cs -> library_at L nf cs -> f = NFD \/ f = NFKD /\ nf NFKD cs <> cs ->
  exists n', un_normalize L f (new_ns (encode cs)) = Ok (Some n') /\ ns_norm n' = encode (nf f cs) /\ ns_orig n' = encode cs.
Proof.
  intros L nf f cs P LO H. destruct (un_decompose L nf cs P LO f) as (gs & n' & _ & _ & _ & _ & E & E1 & E2 & _); [intuition congruence|].
  exists n'. split; [exact E|]. split; [|exact E1]. destruct H as [->|[-> _]]; exact E2.
Qed.
Print Assumptions C70_decomposed_partial.

(** NFC and NFKC leave a text in the named form as it is, and a number that names no form
    changes nothing. *)
Theorem C70_composed_partial : forall L nf f cs, plain cs -> library_at L nf cs -> (f = NFC \/ f = NFKC) /\ nf f cs = cs \/ f = OtherForm ->
  un_normalize L f (new_ns (encode cs)) = Ok (Some (new_ns (encode cs))).
Proof. intros L nf f cs _ LO [[F H]| ->]; [exact (un_composed L nf cs LO f F H)|reflexivity]. Qed.
Print Assumptions C70_composed_partial.

Example C70_ex : plain cafe /\ library_at toy toy_nf cafe /\ toy_nf NFC cafe = cafe /\ toy_nf NFD cafe = [99; 97; 102; 101; 769; 33]%N /\
  toy_nf NFKD (64257 :: cafe)%N = [102; 105; 99; 97; 102; 101; 769; 33]%N /\
  toy_nf NFC (toy_nf NFD cafe) = cafe.
Proof. split; [now apply plain_dec|]. split; [now apply toy_library, plain_dec|]. now vm_compute. Qed.

(** * Counterexamples *)

(** A text that is not yet in form C or KC is decomposed instead of composed: the result of
    NFC is the form D, that of NFKC the form KD. *)
Theorem C70_nfc_refuted : forall L nf f cs, plain cs -> library_at L nf cs -> f = NFC \/ f = NFKC -> nf f cs <> cs ->
  exists n', un_normalize L f (new_ns (encode cs)) = Ok (Some n') /\ ns_norm n' = encode (nf (decomposing f) cs) /\ ns_orig n' = encode cs.
Proof.
  intros L nf f cs P LO [-> | ->] H.
  - destruct (un_decompose L nf cs P LO NFC) as (gs & n' & _ & _ & _ & _ & E & E1 & E2 & _); [auto|]. eauto.
  - destruct (un_nfkc L nf cs P LO H) as (n' & E & E1 & E2). eauto.
Qed.
Print Assumptions C70_nfc_refuted.
(** "e" with a combining accent stays as it is, although the text is not in form C. *)
Example C70_nfc_ex : plain [101; 769]%N /\ library_at toy toy_nf [101; 769]%N /\ toy_nf NFC [101; 769]%N = [233]%N /\ toy_nf NFKC [101; 769]%N = [233]%N /\
  match un_normalize toy NFC (new_ns (encode [101; 769]%N)) with Ok (Some n) => ns_norm n = encode [101; 769]%N | _ => False end /\
  match un_normalize toy NFKC (new_ns (encode [101; 769]%N)) with Ok (Some n) => ns_norm n = encode [101; 769]%N | _ => False end.
Proof. split; [now apply plain_dec|]. split; [now apply toy_library, plain_dec|]. now vm_compute. Qed.

(** NFKD returns nil for a text that is in form KD, such as any ASCII text ... *)
Theorem C70_nfkd_nil_refuted : forall L nf cs, plain cs -> library_at L nf cs -> nf NFKD cs = cs ->
  un_normalize L NFKD (new_ns (encode cs)) = Ok None.
Proof. intros L nf cs _ LO H. exact (un_nfkd_nil L nf cs LO (new_ns (encode cs)) eq_refl H). Qed.
Print Assumptions C70_nfkd_nil_refuted.
(** ... so a tokenizer with this normalizer panics when the text up to the first added token
    is in form KD. *)
Theorem C70_nfkd_encode_refuted : forall sort_start sort_id, sorts start_key sort_start -> sorts id_key sort_id ->
  forall L nf t ty wi ot s cs rest, matching_ok (tk_raw t) -> tk_normalizer t = Some (used (un_normalize L NFKD)) ->
  clean s -> s <> [] -> cut_added sort_start sort_id (tk_raw t) s = (None, encode cs) :: rest ->
  plain cs -> library_at L nf cs -> nf NFKD cs = cs ->
  encode_text sort_start sort_id t ty wi ot s = Panic.
Proof. exact nfkd_panics. Qed.
Print Assumptions C70_nfkd_encode_refuted.
Example C70_nfkd_ex :
  let t := Tkz no_matching no_matching (Some (used (un_normalize toy NFKD))) None (Some whole) None None None in
  let s := [104; 105]%N in
  matching_ok (tk_raw t) /\ clean s /\ cut_added (isort start_key) (isort id_key) (tk_raw t) s = [(None, encode s)] /\
  plain s /\ library_at toy toy_nf s /\ toy_nf NFKD s = s /\ encode_text (isort start_key) (isort id_key) t 0 (-1) OByte s = Panic /\
  encode_text (isort start_key) (isort id_key) t 0 (-1) OByte (encode [104; 233]%N) <> Panic.
Proof.
  assert (P : plain [104; 105]%N) by now apply plain_dec.
  split; [exact none_matching|]. split; [exists [104; 105]%N; destruct P; auto|]. split; [vm_compute; reflexivity|]. split; [exact P|].
  split; [now apply toy_library|]. split; [vm_compute; reflexivity|]. split; [vm_compute; reflexivity|]. vm_compute. discriminate.
Qed.

(** Each byte of the result should be aligned with the character, and its marks, from which it
    comes.  This is the case exactly if each group of the text, the last one apart, has as many
    characters as segments: the [k]th segment is aligned with the [k]th character. *)
Theorem C70_alignment_refuted : forall L nf f cs gs, plain cs -> library_at L nf cs ->
  f = NFD \/ ((f = NFC \/ f = NFKD) /\ nf f cs <> cs) ->
  groups_ok gs -> source gs = cs -> iter L (decomposing f) (encode cs) = segments gs ->
  exists n', un_normalize L f (new_ns (encode cs)) = Ok (Some n') /\
    (Forall2 within (ns_al n') (owners gs 0) <-> Forall (fun g => length (fst g) = length (snd g)) (removelast gs)).
Proof. intros L nf f cs gs P LO. exact (un_alignment L nf cs P LO f gs). Qed.
Print Assumptions C70_alignment_refuted.
Definition text_and_al (r : res (option ns)) : option (str * list (Z * Z)) := match r with Ok (Some n) => Some (ns_norm n, ns_al n) | _ => None end.
(** "éx" is aligned well; in "e´x", already decomposed, "x" is aligned with the accent; in the
    ligature "fi" followed by "x", "i" with "x"; with NFKC, in the ligature followed by
    "éxyz", the accented letter with "x". *)
Example C70_alignment_ex :
  (let gs := toy_groups NFD cafe in groups_ok gs /\ source gs = cafe /\ Forall (fun g => length (fst g) = length (snd g)) (removelast gs)) /\
  text_and_al (un_normalize toy NFD (new_ns (encode [233; 120]%N))) = Some (encode [101; 769; 120]%N, [(0, 2); (0, 2); (0, 2); (2, 3)]) /\
  text_and_al (un_normalize toy NFD (new_ns (encode [101; 769; 120]%N))) = Some (encode [101; 769; 120]%N, [(0, 1); (0, 1); (0, 1); (1, 3)]) /\
  text_and_al (un_normalize toy NFKD (new_ns (encode [64257; 120]%N))) = Some (encode [102; 105; 120]%N, [(0, 3); (3, 4); (3, 4)]) /\
  text_and_al (un_normalize toy NFKC (new_ns (encode [64257; 233; 120; 121; 122]%N))) =
    Some (encode [102; 105; 101; 769; 120; 121; 122]%N, [(0, 3); (3, 5); (5, 6); (5, 6); (5, 6); (7, 8); (7, 8); (7, 8)]).
Proof.
  split.
  - cbn zeta. split; [|split; [now vm_compute|vm_compute; repeat constructor]]. apply (toy_cut_ok NFD cafe). assert (P : plain cafe) by now apply plain_dec. apply P.
  - now vm_compute.
Qed.

(** A sequence of normalizers that all return a string gives each the result of the one before. *)
Theorem C70_sequence : forall fs ms n, length ms = length fs ->
  Forall2 (fun f x => f (fst x) = Ok (Some (snd x))) fs (combine (n :: removelast ms) ms) ->
  norm_sequence fs n = Ok (Some (last ms n)).
Proof. exact sequence_chain. Qed.
Print Assumptions C70_sequence.
Example C70_sequence_ex :
  let fs := [un_normalize toy NFD; un_normalize toy OtherForm; un_normalize toy NFC] in
  exists m1 m2 m3, Forall2 (fun f x => f (fst x) = Ok (Some (snd x))) fs (combine [new_ns (encode cafe); m1; m2] [m1; m2; m3]) /\
    ns_norm m3 = encode [99; 97; 102; 101; 769; 33]%N /\ norm_sequence fs (new_ns (encode cafe)) = Ok (Some m3).
Proof.
  cbn zeta. eexists _, _, _. split; [|split].
  - repeat apply Forall2_cons; [vm_compute; reflexivity..|apply Forall2_nil].
  - vm_compute. reflexivity.
  - vm_compute. reflexivity.
Qed.
(** A sequence of normalizers with NFKD before the last one panics for such a text. *)
Theorem C70_sequence_refuted : forall L nf cs f fs, plain cs -> library_at L nf cs -> nf NFKD cs = cs ->
  norm_sequence (un_normalize L NFKD :: f :: fs) (new_ns (encode cs)) = Panic.
Proof.
  intros L nf cs f fs P LO H. unfold norm_sequence. cbn [foldR]. rewrite (un_nfkd_nil L nf cs LO (new_ns (encode cs)) eq_refl H). reflexivity.
Qed.
Print Assumptions C70_sequence_refuted.
