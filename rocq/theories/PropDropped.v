(** C60, texts with dropped characters (control characters and the like). *)
From Verif Require Import Base Utf8Model NormalizedModel NormalizedSpec PipelineSpec BertNormModel BertNormSpec DroppedProofs.
Open Scope Z_scope.

(** All steps on a single-byte text with dropped characters anywhere, for any choice of
    the other options: the steps act on the cleaned text. *)
Theorem C60_dropped_partial : forall cc mn lower chinese accents (lowercase : bool) rs,
  rs <> [] -> Forall single_byte rs ->
  let t := cleaned cc rs in
  let t2 := if lowercase then lower t else t in
  length t2 = length t -> clean t2 ->
  (accents = true -> next_is mn (runes t2) = false) ->
  exists n', bert_normalize cc mn lower (BN true chinese accents lowercase) (new_ns rs) = Ok n' /\ ns_orig n' = rs /\
    ns_norm n' = bert_text chinese lowercase accents mn lower t.
Proof. exact bert_single. Qed.
Print Assumptions C60_dropped_partial.

Definition ctl (c : N) : bool := (c =? 7)%N || (c =? 0xad)%N || (c =? 0xfeff)%N.
Definition grave (c : N) : bool := (c =? 768)%N.
Definition small (s : str) : str := map (fun b => if ((65 <=? b) && (b <=? 90))%N then (b + 32)%N else b) s.
(** BEL, "A", BEL, BEL, "b c", BEL. *)
Definition bells : list N := [7; 65; 7; 7; 98; 32; 99; 7]%N.
Example C60_dropped_ex : bells <> [] /\ Forall single_byte bells /\ cleaned ctl bells = [65; 98; 32; 99]%N /\
  length (small (cleaned ctl bells)) = length (cleaned ctl bells) /\ clean (small (cleaned ctl bells)) /\
  next_is grave (runes (small (cleaned ctl bells))) = false /\
  bert_text true true true grave small (cleaned ctl bells) = [97; 98; 32; 99]%N.
Proof.
  split; [discriminate|]. split; [repeat constructor; unfold single_byte; lia|]. split; [reflexivity|]. split; [reflexivity|].
  split; [|split; [reflexivity|vm_compute; reflexivity]].
  exists [97; 98; 32; 99]%N. split; [repeat constructor; unfold scalar; lia|]. split; [repeat constructor; discriminate|reflexivity].
Qed.

(** Refuted for a dropped multi-byte character at the start (a byte order mark, say): if a
    single-byte text follows a dropped character of [w] bytes, the last [2 w (w - 1)] characters of the text (the whole text, if it is
    not longer) come twice. *)
Theorem C60_dropped_refuted : forall cc mn lower lowercase z s n',
  scalar z -> z <> 0%N -> dropped cc z = true ->
  Forall single_byte s -> Forall (fun c => dropped cc c = false) s ->
  let w := length (encode_rune z) in (w < length s)%nat ->
  bert_normalize cc mn lower (BN true true false lowercase) (new_ns (encode (z :: s))) = Ok n' ->
  let t := s ++ skipn (length s - 2 * w * (w - 1)) s in
  ns_norm n' = if lowercase then lower t else t.
Proof. exact bert_repeats. Qed.
Print Assumptions C60_dropped_refuted.

(** A byte order mark in front of "abcd": "abcdabcd"; a soft hyphen: "abcdabcd", and for
    "abcdef" the last four characters twice. *)
Definition abcd : list N := [97; 98; 99; 100]%N.
Example C60_dropped_refuted_ex :
  scalar 0xfeff /\ dropped ctl 0xfeff = true /\ Forall single_byte abcd /\ Forall (fun c => dropped ctl c = false) abcd /\
  (length (encode_rune 0xfeff) < length abcd)%nat /\
  (match bert_normalize ctl grave small (BN true true false true) (new_ns (encode (0xfeff :: abcd)%N)) with Ok n => ns_norm n | _ => [] end) = abcd ++ abcd /\
  (match bert_normalize ctl grave small (BN true true false true) (new_ns (encode (0xad :: abcd ++ [101; 102])%N)) with Ok n => ns_norm n | _ => [] end)
    = abcd ++ [101; 102; 99; 100; 101; 102]%N.
Proof.
  split; [unfold scalar; lia|]. split; [reflexivity|]. split; [repeat constructor; unfold single_byte; lia|]. split; [repeat constructor|].
  split; [vm_compute; lia|]. split; vm_compute; reflexivity.
Qed.
