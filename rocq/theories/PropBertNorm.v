(** Properties C60 and C61: the BERT normalizer and the default normalizer. *)
From Verif Require Import Base BaseProofs Utf8Model Utf8Proofs NormalizedModel NormalizedSpec PipelineSpec PreTokenizerModel
  BertNormModel BertNormSpec BertNormProofs.
Open Scope Z_scope.

(** ** C60 *)

(** Cleaning a fresh text drops exactly the characters to be dropped.  Missing: white
    space becomes a space only right before a dropped character (see [cleaned]), and the
    cases in which the change list makes the code panic. *)
Theorem C60_clean_partial : forall cc s n',
  valid_utf8 s -> clean_text cc (new_ns s) = Ok n' ->
  ns_norm n' = encode (cleaned cc (runes s)) /\ ns_orig n' = s.
Proof. exact clean_fresh. Qed.
Print Assumptions C60_clean_partial.

(** On single-byte text (without NUL) cleaning succeeds, with exact alignments. *)
Theorem C60_clean_single_byte_partial : forall cc rs, Forall single_byte rs ->
  exists n', clean_text cc (new_ns rs) = Ok n' /\ ns_orig n' = rs /\ ns_norm n' = cleaned cc rs /\
    ns_al n' = edit_al (clean_edits cc rs) 0 /\ ns_ao_values n' = edit_ao (clean_edits cc rs) 0.
Proof. exact clean_single. Qed.
Print Assumptions C60_clean_single_byte_partial.

(** "a\tb\t", BEL, "c\n". *)
Definition bel (c : N) : bool := (c =? 7)%N.
Definition tabs : list N := [97; 9; 98; 9; 7; 99; 10]%N.
Example C60_clean_ex : Forall single_byte tabs /\ cleaned bel tabs = [97; 9; 98; 32; 99; 10]%N /\
  clean_documented bel tabs = [97; 32; 98; 32; 99; 32]%N /\
  edit_al (clean_edits bel tabs) 0 = [(0, 1); (1, 2); (2, 3); (3, 4); (5, 6); (6, 7)].
Proof. split; [repeat constructor; unfold single_byte; lia|]. repeat split; reflexivity. Qed.

(** Refuted: a text with nothing to drop comes back unchanged, tabs and line breaks
    included. *)
Theorem C60_white_space_refuted : forall cc rs,
  Forall scalar rs -> Forall (fun c => dropped cc c = false) rs ->
  exists n', clean_text cc (new_ns (encode rs)) = Ok n' /\ ns_norm n' = encode rs.
Proof. intros cc rs Sc D. destruct (clean_keeps cc rs Sc D) as (n' & E & _ & T & _). eauto. Qed.
Print Assumptions C60_white_space_refuted.
Example C60_white_space_ex : let rs := [97; 9; 98]%N in
  Forall scalar rs /\ Forall (fun c => dropped bel c = false) rs /\ clean_documented bel rs <> rs.
Proof. cbn zeta. split; [repeat constructor; unfold scalar; lia|]. split; [repeat constructor|discriminate]. Qed.

(** Chinese characters outside extension A get a space on each side. *)
Theorem C60_chinese_partial : forall rs,
  Forall scalar rs -> Forall (fun c => c <> 0%N) rs -> Forall (fun c => extension_a c = false) rs ->
  exists n', handle_chinese (new_ns (encode rs)) = Ok n' /\ ns_orig n' = encode rs /\ ns_norm n' = encode (spaced rs).
Proof. intros rs Sc NZ X. rewrite <- spaced_by_eq by exact X. now apply chinese_new. Qed.
Print Assumptions C60_chinese_partial.
(** "a中文". *)
Definition mixed : list N := [97; 0x4e2d; 0x6587]%N.
Example C60_chinese_ex : Forall scalar mixed /\ Forall (fun c => c <> 0%N) mixed /\
  Forall (fun c => extension_a c = false) mixed /\ spaced mixed = [97; 32; 0x4e2d; 32; 32; 0x6587; 32]%N.
Proof.
  split; [repeat constructor; unfold scalar; lia|]. split; [repeat constructor; discriminate|].
  split; [repeat constructor|reflexivity].
Qed.

(** Refuted for extension A (U+3400 to U+4DBF): the table is not sorted, so the library
    never finds these characters and they stay without spaces. *)
Theorem C60_extension_a_refuted : forall rs,
  Forall scalar rs -> Forall (fun c => c <> 0%N) rs -> Forall (fun c => chinese c = true -> extension_a c = true) rs ->
  exists n', handle_chinese (new_ns (encode rs)) = Ok n' /\ ns_norm n' = encode rs.
Proof.
  intros rs Sc NZ X. destruct (chinese_new rs Sc NZ) as (n' & E & _ & T). exists n'. split; [exact E|]. rewrite T. f_equal.
  apply spaced_by_none. eapply Forall_impl; [|exact X]. intros c H. cbv beta in *. rewrite is_chinese_eq.
  destruct (chinese c); [rewrite (H eq_refl)|]; reflexivity.
Qed.
Print Assumptions C60_extension_a_refuted.
Example C60_extension_a_ex : let rs := [97; 0x3400; 98]%N in
  Forall (fun c => chinese c = true -> extension_a c = true) rs /\ spaced rs = [97; 32; 0x3400; 32; 98]%N.
Proof. split; [repeat constructor; intros H; exact H|reflexivity]. Qed.

(** All steps together, for any choice of options, on a text with nothing to clean, no
    character of extension A and no Chinese character at the start, if the lower-case
    mapping keeps the length and the result does not start with an accent: the text is
    the documented one. *)
Theorem C60_all_partial : forall cc mn lower b rs,
  rs <> [] -> Forall scalar rs -> Forall (fun c => dropped cc c = false) rs -> Forall (fun c => extension_a c = false) rs ->
  (bn_chinese b = true -> next_is chinese rs = false) ->
  let t := encode (if bn_chinese b then spaced rs else rs) in
  let t2 := if bn_lower b then lower t else t in
  length t2 = length t -> clean t2 ->
  (bn_accents b = true -> next_is mn (runes t2) = false) ->
  exists n', bert_normalize cc mn lower b (new_ns (encode rs)) = Ok n' /\ ns_orig n' = encode rs /\
    ns_norm n' = bert_text (bn_chinese b) (bn_lower b) (bn_accents b) mn lower rs.
Proof. exact bert_all. Qed.
Print Assumptions C60_all_partial.
Definition acute (c : N) : bool := (c =? 769)%N.
Definition ascii_lower (s : str) : str := map (fun b => if ((65 <=? b) && (b <=? 90))%N then (b + 32)%N else b) s.
(** "A文e" and a combining acute accent. *)
Definition sample : list N := [65; 0x6587; 101; 769]%N.
Example C60_all_ex : Forall scalar sample /\ Forall (fun c => dropped bel c = false) sample /\
  Forall (fun c => extension_a c = false) sample /\ next_is chinese sample = false /\
  let t := encode (spaced sample) in length (ascii_lower t) = length t /\ clean (ascii_lower t) /\
  next_is acute (runes (ascii_lower t)) = false /\
  bert_text true true true acute ascii_lower sample = encode [97; 32; 0x6587; 32; 101]%N.
Proof.
  split; [repeat constructor; unfold scalar; lia|]. split; [repeat constructor|]. split; [repeat constructor|]. split; [reflexivity|].
  cbn zeta. split; [reflexivity|]. split; [|split; reflexivity].
  exists [97; 32; 0x6587; 32; 101; 769]%N. split; [repeat constructor; unfold scalar; lia|]. split; [repeat constructor; discriminate|reflexivity].
Qed.

(** Refuted when the text starts with a Chinese character: with accent stripping the
    space in front of it is doubled. *)
Theorem C60_leading_refuted : forall cc mn cleaning rs n',
  Forall scalar rs -> Forall (fun c => dropped cc c = false) rs -> Forall (fun c => extension_a c = false) rs ->
  next_is chinese rs = true ->
  bert_normalize cc mn (fun s => s) (BN cleaning true true false) (new_ns (encode rs)) = Ok n' ->
  ns_norm n' = encode (32%N :: filter (fun c => negb (mn c)) (spaced rs)).
Proof. exact bert_lead_doubled. Qed.
Print Assumptions C60_leading_refuted.
Example C60_leading_ex : exists n',
  bert_normalize bel acute (fun s => s) (BN true true true false) (new_ns (encode [0x4e2d; 97]%N)) = Ok n' /\
  runes (ns_norm n') = [32; 32; 0x4e2d; 32; 97]%N.
Proof. eexists. split; [vm_compute; reflexivity|vm_compute; reflexivity]. Qed.

(** Refuted: accent stripping leaves every text without combining characters alone, so
    an accent that is part of its character stays. *)
Theorem C60_accents_refuted : forall mn rs,
  Forall scalar rs -> Forall (fun c => c <> 0%N) rs -> Forall (fun c => mn c = false) rs ->
  exists n', remove_accents mn (new_ns (encode rs)) = Ok n' /\ ns_norm n' = encode rs.
Proof. exact accents_stay. Qed.
Print Assumptions C60_accents_refuted.
(** "é" as one character. *)
Example C60_accents_ex : Forall scalar [233%N] /\ Forall (fun c => c <> 0%N) [233%N] /\ Forall (fun c => acute c = false) [233%N].
Proof. split; [repeat constructor; unfold scalar; lia|]. split; [repeat constructor; discriminate|repeat constructor]. Qed.

(** ** C61 *)

(** The default normalizer returns the text in lower case without the white space at its
    ends, if the lower-case mapping keeps the length.  Missing: the cases in which
    stripping panics. *)
Theorem C61_default_partial : forall sp (lower : str -> str) (lowercase strip : bool) s n',
  valid_utf8 s -> s <> [] ->
  let t := if lowercase then lower s else s in
  valid_utf8 t -> length t = length s ->
  default_normalize sp lower lowercase strip (new_ns s) = Ok n' ->
  ns_norm n' = (if strip then encode (stripped sp true true (runes t)) else t).
Proof. exact default_text. Qed.
Print Assumptions C61_default_partial.
Definition blank (c : N) : bool := (c =? 32)%N.
Example C61_ex : exists n',
  default_normalize blank ascii_lower true true (new_ns [32; 65; 98; 32]%N) = Ok n' /\
  ns_norm n' = [97; 98]%N /\ valid_utf8 (ascii_lower [32; 65; 98; 32]%N) /\ valid_utf8 [32; 65; 98; 32]%N.
Proof.
  eexists. split; [vm_compute; reflexivity|]. split; [reflexivity|].
  split; [exists [32; 97; 98; 32]%N|exists [32; 65; 98; 32]%N]; (split; [repeat constructor; unfold scalar; lia|reflexivity]).
Qed.

(** Refuted for a longer lower-case form: of "ȺA " the space stays, and in " ȺAB" the
    last letter is doubled (U+023A has two bytes, its lower case U+2C65 three). *)
Definition lower_023a (s : str) : str :=
  encode (map (fun c => if (c =? 570)%N then 11365%N else if ((65 <=? c) && (c <=? 90))%N then (c + 32)%N else c) (runes s)).
Theorem C61_longer_refuted :
  (exists n', default_normalize blank lower_023a true true (new_ns (encode [570; 65; 32]%N)) = Ok n' /\
     runes (ns_norm n') = [11365; 97; 32]%N) /\
  (exists n', default_normalize blank lower_023a true true (new_ns (encode [32; 570; 65; 66]%N)) = Ok n' /\
     runes (ns_norm n') = [11365; 97; 98; 98]%N).
Proof. split; eexists; (split; [vm_compute; reflexivity|vm_compute; reflexivity]). Qed.
Print Assumptions C61_longer_refuted.
