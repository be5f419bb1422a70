(** Properties C29 and C30: pre-tokenized strings. *)
From Verif Require Import Base Utf8Model Utf8Proofs NormalizedModel NormalizedSpec NormalizedProofs NormalizedInvProofs
  NormalizedExactProofs NormalizedOpProofs EncodingModel BpeModel PreTokenizedModel PreTokenizedSpec PreTokenizedProofs.
Open Scope Z_scope.

(** "ab cé" cut into "ab", " ", "cé"; the first piece has its token already. *)
Definition ab : split := Spl (NS [97; 98] [97; 98] [(0, 1); (1, 2)]%Z [0; 1]%nat [(0, 1); (1, 2)]%Z 0)%N
  (Some [Tok 7 [97; 98]%N (0, 2)]).
Definition sp : split := Spl (NS [32] [32] [(0, 1)]%Z [0]%nat [(0, 1)]%Z 2)%N None.
Definition ce : split := Spl (NS [99; 195; 169] [99; 195; 169] [(0, 1); (1, 3); (1, 3)]%Z [0; 1; 1]%nat [(0, 1); (1, 3)]%Z 3)%N None.
Definition ex_pt : pretok := PT [97; 98; 32; 99; 195; 169]%N [ab; sp; ce].
(** Token 1 for each byte. *)
Definition ex_tok (n : ns) : res (option (list token)) :=
  Ok (Some (map (fun i => Tok 1 [120]%N (Z.of_nat i, Z.of_nat i + 1)) (seq 0 (length (ns_norm n))))).

(** * C29 *)

(** Split keeps every tokenized piece, in order; if the function attaches no tokens they
    are the only ones with tokens; the text is what the function produced. *)
Theorem C29_split : forall f p p', pt_split f p = Ok p' ->
  pt_orig p' = pt_orig p /\
  subseq (filter has_toks (pt_splits p)) (pt_splits p') /\
  (plain f -> filter has_toks (pt_splits p') = filter has_toks (pt_splits p)) /\
  exists news, Forall2 (produced f) (combine (seq 0 (length (pt_splits p))) (pt_splits p)) news /\
    text_of (pt_splits p') = concat (map text_of news).
Proof. exact split_spec. Qed.
Print Assumptions C29_split.
(** In particular a function that keeps the text of each piece keeps the whole text. *)
Theorem C29_split_text : forall f p p', keeps_text f -> pt_split f p = Ok p' ->
  text_of (pt_splits p') = text_of (pt_splits p).
Proof. exact split_text. Qed.
Print Assumptions C29_split_text.
Definition ex_split (i : nat) (n : ns) : res (list split) := Ok [Spl n None; Spl (new_ns []) None].
Example C29_split_ex : keeps_text ex_split /\ plain ex_split /\ pt_split ex_split ex_pt = Ok ex_pt.
Proof.
  split; [|split; [|reflexivity]].
  - intros i n l [= <-]. unfold text_of, sp_text. cbn. now rewrite app_nil_r.
  - intros i n l [= <-]. repeat constructor.
Qed.
(** Tokenize keeps the pieces and attaches tokens only where there were none. *)
Theorem C29_tokenize : forall f p p', pt_tokenize f p = Ok p' ->
  pt_orig p' = pt_orig p /\ map sp_ns (pt_splits p') = map sp_ns (pt_splits p) /\
  Forall2 (fun sp sp' => if has_toks sp then sp' = sp else f (sp_ns sp) = Ok (sp_toks sp')) (pt_splits p) (pt_splits p').
Proof. exact tokenize_spec. Qed.
Print Assumptions C29_tokenize.
(** All histories of Split (keeping the text) and Tokenize: text and tokenized pieces stay. *)
Theorem C29_history : forall os p p', foldR run_pt_op os p = Ok p' ->
  Forall (fun o => match o with DoSplit f => keeps_text f | DoTokenize _ => True end) os ->
  pt_orig p' = pt_orig p /\ text_of (pt_splits p') = text_of (pt_splits p) /\
  subseq (filter has_toks (pt_splits p)) (filter has_toks (pt_splits p')).
Proof. exact history. Qed.
Print Assumptions C29_history.
Example C29_history_ex : exists p', foldR run_pt_op [DoSplit ex_split; DoTokenize ex_tok; DoSplit ex_split] ex_pt = Ok p' /\
  length (filter has_toks (pt_splits p')) = 3%nat /\ text_of (pt_splits p') = pt_orig ex_pt.
Proof. eexists. split; [reflexivity|]. split; reflexivity. Qed.
(** Normalize does its work on the pieces without tokens ... *)
Theorem C29_normalize_partial : forall f p p', pt_normalize f p = Ok p' ->
  Forall2 (fun sp sp' => f (sp_ns sp) = Ok (sp_ns sp')) (filter (fun sp => negb (has_toks sp)) (pt_splits p)) (pt_splits p').
Proof. intros f p p' E. exact (proj2 (normalize_drops f p p' E)). Qed.
Print Assumptions C29_normalize_partial.
(** ... and loses all the others: after it no piece has tokens. *)
Theorem C29_normalize_refuted : forall f p p', pt_normalize f p = Ok p' -> all_toks p' = [].
Proof.
  intros f p p' E. destruct (normalize_drops f p p' E) as [F _]. unfold all_toks.
  induction F as [|x l H _ IH]; [reflexivity|]. cbn. unfold toks_in at 1. rewrite H. exact IH.
Qed.
Print Assumptions C29_normalize_refuted.
Example C29_normalize_ex : exists p', pt_normalize (fun n => Ok n) ex_pt = Ok p' /\ all_toks ex_pt <> [] /\
  text_of (pt_splits p') = [32; 99; 195; 169]%N.
Proof. eexists. split; [reflexivity|]. split; [discriminate|reflexivity]. Qed.

(** * C30 *)

(** Failure exactly when some piece has no tokens (or the offset type is unknown). *)
Theorem C30_fails : forall p ty wi ot, good_pieces p ->
  (into_encoding p ty wi ot = Err <-> pt_splits p <> [] /\ ((exists sp, In sp (pt_splits p) /\ toks_in sp = []) \/ ot = OInvalid)) /\
  (into_encoding p ty wi ot <> Err -> exists e, into_encoding p ty wi ot = Ok e).
Proof. exact into_fails. Qed.
Print Assumptions C30_fails.
(** Every token once, in order, with parallel lists. *)
Theorem C30_rows : forall p ty wi ot e, into_encoding p ty wi ot = Ok e ->
  ids e = map t_id (all_toks p) /\ tokens e = map t_value (all_toks p) /\
  words e = word_numbers p wi /\
  type_ids e = repeat ty (length (all_toks p)) /\ special e = repeat 0 (length (all_toks p)) /\
  attention e = repeat 1 (length (all_toks p)) /\ length (offsets e) = length (all_toks p) /\
  length (words e) = length (all_toks p) /\ overflowing e = [] /\ seq_ranges e = Some [].
Proof. exact into_rows. Qed.
Print Assumptions C30_rows.
(** Byte offsets: the part of the original text the token's bytes are aligned with.
    Missing: tokens with an empty range. *)
Theorem C30_bytes_partial : forall p ty wi e, good_pieces p -> into_encoding p ty wi OByte = Ok e ->
  Forall2 (fun (nt : ns * token) o => let n := fst nt in let t := snd nt in
    exists a b, o = (ns_shift n + a, ns_shift n + b) /\
      0 <= ns_shift n + a /\ a <= b /\ ns_shift n + b <= zlen (pt_orig p) /\ b <= zlen (ns_orig n) /\ 0 <= a /\
      forall i q, fst (t_off t) <= i < snd (t_off t) -> nth_error (ns_al n) (Z.to_nat i) = Some q -> a <= fst q /\ snd q <= b)
    (located p) (offsets e).
Proof. exact into_bytes. Qed.
Print Assumptions C30_bytes_partial.
(** Character offsets are the character positions of those bytes, unless the token ends
    at the end of the text. *)
Theorem C30_chars_partial : forall p ty wi e e' rs i pre mid post, pt_orig p = encode rs -> Forall scalar rs ->
  into_encoding p ty wi OByte = Ok e -> into_encoding p ty wi OChar = Ok e' ->
  rs = pre ++ mid ++ post -> post <> [] ->
  nth_error (offsets e) i = Some (zlen (encode pre), zlen (encode (pre ++ mid))) ->
  nth_error (offsets e') i = Some (zlen pre, zlen (pre ++ mid)).
Proof. intros. now apply (into_chars_pos p ty wi e e' rs i pre mid post). Qed.
Print Assumptions C30_chars_partial.
(** Every token that ends at the end of the text gets an end one too small. *)
Theorem C30_chars_end_refuted : forall p ty wi e e' rs i pre mid, pt_orig p = encode rs -> Forall scalar rs ->
  into_encoding p ty wi OByte = Ok e -> into_encoding p ty wi OChar = Ok e' ->
  rs = pre ++ mid -> mid <> [] ->
  nth_error (offsets e) i = Some (zlen (encode pre), zlen (encode rs)) ->
  nth_error (offsets e') i = Some (zlen pre, zlen rs - 1).
Proof.
  intros p ty wi e e' rs i pre mid Ho V E E' -> N H.
  destruct (into_chars_pos p ty wi e e' (pre ++ mid) i pre mid [] Ho V E E') as [_ X]; [now rewrite app_nil_r|exact H|auto].
Qed.
Print Assumptions C30_chars_end_refuted.
Definition ex_pt2 : pretok := PT (pt_orig ex_pt) [ab; Spl (sp_ns sp) (Some [Tok 8 [32]%N (0, 1)]);
  Spl (sp_ns ce) (Some [Tok 9 [99]%N (0, 1); Tok 10 [195; 169]%N (1, 3)])].
Lemma ex_good : good_pieces ex_pt2.
Proof.
  assert (W : forall n, length (ns_al n) = length (ns_norm n) -> forallb (fun p => (0 <=? fst p) && (fst p <=? snd p) && (snd p <=? zlen (ns_orig n))) (ns_al n) = true ->
    length (ns_ao n) = length (ns_orig n) -> forallb (fun a => (a <? length (ns_cells n))%nat) (ns_ao n) = true -> wf n).
  { intros n H1 H2 H3 H4. split; [exact H1|]. split; [|split; [exact H3|]].
    - apply Forall_forall. intros q I. rewrite forallb_forall in H2. specialize (H2 q I). unfold inside. lia.
    - apply Forall_forall. intros q I. rewrite forallb_forall in H4. specialize (H4 q I). lia. }
  unfold good_pieces. cbn [ex_pt2 pt_splits pt_orig]. repeat (apply Forall_cons); [| | |constructor];
    (split; [split; [apply W; reflexivity|split; [|cbn; lia]]|]).
  - intros i j p q L Hi Hj. destruct i as [|[|[|i]]], j as [|[|[|j]]]; cbn in Hi, Hj; try lia; try (destruct i; discriminate);
      try (destruct j; discriminate); try discriminate; injection Hi as <-; injection Hj as <-; unfold ple; cbn; lia.
  - repeat constructor; cbn; lia.
  - intros i j p q L Hi Hj. destruct i as [|[|[|i]]], j as [|[|[|j]]]; cbn in Hi, Hj; try lia; try (destruct i; discriminate);
      try (destruct j; discriminate); try discriminate; injection Hi as <-; injection Hj as <-; unfold ple; cbn; lia.
  - repeat constructor; cbn; lia.
  - intros i j p q L Hi Hj. destruct i as [|[|[|i]]], j as [|[|[|j]]]; cbn in Hi, Hj; try lia; try (destruct i; discriminate);
      try (destruct j; discriminate); try discriminate; injection Hi as <-; injection Hj as <-; unfold ple; cbn; lia.
  - repeat constructor; cbn; lia.
Qed.
Example C30_ex : exists e e', good_pieces ex_pt2 /\ into_encoding ex_pt2 0 (-1) OByte = Ok e /\
  into_encoding ex_pt2 0 (-1) OChar = Ok e' /\
  ids e = [7; 8; 9; 10] /\ words e = [0; 1; 2; 2] /\
  offsets e = [(0, 2); (2, 3); (3, 4); (4, 6)] /\ offsets e' = [(0, 2); (2, 3); (3, 4); (4, 4)].
Proof.
  eexists _, _. split; [exact ex_good|]. split; [vm_compute; reflexivity|]. split; [vm_compute; reflexivity|].
  split; [reflexivity|]. split; [reflexivity|]. split; reflexivity.
Qed.
(** A token with an empty range may be placed outside the text: after appending to "a",
    the empty token at the end (0-based byte 3) is reported at (3, 3) in a text of one byte. *)
Theorem C30_empty_token_refuted : exists n, ns_append [98; 99]%N (new_ns [97]%N) = Ok n /\
  exists e, into_encoding (PT [97]%N [Spl n (Some [Tok 0 [] (3, 3)])]) 0 (-1) OByte = Ok e /\ offsets e = [(3, 3)].
Proof. eexists. split; [vm_compute; reflexivity|]. eexists. split; [vm_compute; reflexivity|reflexivity]. Qed.
Print Assumptions C30_empty_token_refuted.
(** GetSplits with byte offsets lists all pieces with their texts, tokens and place. *)
Theorem C30_get_splits : forall p on, exists r, get_splits p on false = Ok r /\
  map (fun x => fst (fst x)) r = map sp_text (pt_splits p) /\ map snd r = map sp_toks (pt_splits p) /\
  (on = OnOriginal -> map (fun x => snd (fst x)) r =
     map (fun sp => (ns_shift (sp_ns sp), ns_shift (sp_ns sp) + zlen (ns_orig (sp_ns sp)))) (pt_splits p)) /\
  (on = OnNormalized -> forall i x, nth_error r i = Some x ->
     snd (fst x) = (zlen (text_of (firstn i (pt_splits p))), zlen (text_of (firstn (S i) (pt_splits p))))).
Proof.
  intros p on. destruct (get_pieces_bytes on (pt_splits p) 0) as (r & E & H1 & H2). exists r.
  split; [exact E|]. split; [exact H1|]. split; [exact H2|].
  split; intros ->; [exact (get_pieces_original _ _ _ E)|exact (get_pieces_normalized _ _ _ E)].
Qed.
Print Assumptions C30_get_splits.
(** With character offsets it panics as soon as a piece reaches the end of the text. *)
Theorem C30_get_splits_refuted : forall p sp, valid_utf8 (pt_orig p) -> In sp (pt_splits p) ->
  ns_shift (sp_ns sp) + zlen (ns_orig (sp_ns sp)) = zlen (pt_orig p) -> get_splits p OnOriginal true = Panic.
Proof. exact get_splits_panic. Qed.
Print Assumptions C30_get_splits_refuted.
Example C30_get_splits_ex : get_splits ex_pt2 OnOriginal true = Panic /\ get_splits (pt_new [97]%N) OnOriginal true = Panic.
Proof. split; reflexivity. Qed.
