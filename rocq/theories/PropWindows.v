(** C81: the windows of a long text hold all of its tokens. *)
From Coq Require Import String.
From Verif Require Import Base BaseProofs EncodingModel EncodingSpec BpeModel AddedVocabModel AddedVocabSpec AddedFindProofs PreTokenizedModel ProcessorModel PipelineModel ConfigModel PropTokens PropPipeline WindowsSpec WindowsProofs.
Open Scope Z_scope.
Open Scope list_scope.

(** A truncated text: the encoding and its overflowing parts are its windows in order, each between the
    special tokens and padded; without what they share, the windows are the text. *)
Theorem C81_single_partial : forall sort_start sort_id t ot x add max st stride before after e r,
  tk_trunc t = Some (Trunc max st stride) -> 0 <= stride -> pads_right (tk_padding t) ->
  single_frame add (tk_processor t) before after -> unshared (tk_padding t) [before; after] ->
  encode_sequence sort_start sort_id t 0 ot x = Ok e -> tk_encode sort_start sort_id t ot (ISingle x) add = Ok (Some r) ->
  exists ws, cut_to (room max [before; after]) (Z.to_nat stride) (length (ids e)) ws /\
    Forall2 (fun w part => reads (tk_padding t) r part (join2 [before; piece_of e w; after])) ws (r :: overflowing r) /\
    rejoin (Z.to_nat stride) (map (at_window (ids e)) ws) = ids e.
Proof.
  intros ss si t ot x add max st stride B C e r Ht Hs D F _ E H. destruct (encodes_single ss si t ot x add max st stride B C e r Ht Hs D F E H) as (ws & Cut & R).
  exists ws. split; [exact Cut|]. split; [exact R|]. exact (rejoin_cut _ _ _ _ Cut).
Qed.
Print Assumptions C81_single_partial.

(** Two texts: each pair of windows is one part, the first window of both the encoding itself. *)
Theorem C81_pair_partial : forall sort_start sort_id t ot x y add max st stride before mid after e1 e2 r,
  tk_trunc t = Some (Trunc max st stride) -> 0 <= stride -> pads_right (tk_padding t) ->
  pair_frame add (tk_processor t) before mid after ->
  encode_sequence sort_start sort_id t 0 ot x = Ok e1 -> encode_sequence sort_start sort_id t 1 ot y = Ok e2 ->
  tk_encode sort_start sort_id t ot (IDual x y) add = Ok (Some r) ->
  exists ws1 ws2, pair_cut st (room max [before; mid; after]) (Z.to_nat stride) (length (ids e1)) (length (ids e2)) ws1 ws2 /\
    Forall2 (fun w part => reads (tk_padding t) r part (join2 [before; piece_of e1 (fst w); mid; piece_of e2 (snd w); after])) (all_pairs ws1 ws2) (r :: overflowing r) /\
    rejoin (Z.to_nat stride) (map (at_window (ids e1)) ws1) = ids e1 /\ rejoin (Z.to_nat stride) (map (at_window (ids e2)) ws2) = ids e2.
Proof.
  intros ss si t ot x y add max st stride B M C e1 e2 r Ht Hs D F E E' H. destruct (encodes_pair ss si t ot x y add max st stride B M C e1 e2 r Ht Hs D F E E' H) as (ws1 & ws2 & Cut & R).
  exists ws1, ws2. split; [exact Cut|]. split; [exact R|].
  assert (W : forall (l : list Z) ws, ws = [(0, length l)%nat] -> rejoin (Z.to_nat stride) (map (at_window l) ws) = l).
  { intros l ws ->. apply (rejoin_cut (Z.of_nat (length l)) _ l). left. split; [left; reflexivity|reflexivity]. }
  destruct st; cbn [pair_cut] in Cut; destruct Cut as [C1 C2]; split; first [exact (rejoin_cut _ _ _ _ C1)|exact (rejoin_cut _ _ _ _ C2)|exact (W _ _ C1)|exact (W _ _ C2)].
Qed.
Print Assumptions C81_pair_partial.

(** A negative stride is accepted, and then all windows but the first are empty: the rest of the text
    is lost. *)
Theorem C81_negative_refuted : forall sort_start sort_id t ot x add max stride e,
  tk_trunc t = Some (Trunc max LongestFirst stride) -> stride < 0 -> tk_processor t = None -> tk_padding t = None ->
  encode_sequence sort_start sort_id t 0 ot x = Ok e -> 0 < max < Z.of_nat (length (ids e)) ->
  exists r, tk_encode sort_start sort_id t ot (ISingle x) add = Ok (Some r) /\ flat_map ids (r :: overflowing r) = firstn (Z.to_nat max) (ids e).
Proof. exact encodes_negative. Qed.
Print Assumptions C81_negative_refuted.

(** A text of four tokens in windows of two that share one, with BERT's tokens and padding to five. *)
Definition wd_tok (tr : trunc_params) (po : option processor) (pa : option pad_params) : tokenizer :=
  Tkz no_matching no_matching None None (Some (fun s => Ok (Some (map (fun c => Tok (Z.of_N c) [c] (0, 1)) s)))) po (Some tr) pa.
Definition wd_bert := PBert (PTok (key "[C]") 4) (PTok (key "[S]") 5).
Definition wd_pad := Padding (Fixed 5) PRight 6 0 (key "[P]").
Definition wd_ids (x : res (option Encoding)) := match x with Ok (Some r) => Some (map ids (r :: overflowing r)) | _ => None end.
Example C81_single_meets : let t := wd_tok (Trunc 4 LongestFirst 1) (Some wd_bert) (Some wd_pad) in
  pads_right (tk_padding t) /\ single_frame true (tk_processor t) ([4], [key "[C]"]) ([5], [key "[S]"]) /\ unshared (tk_padding t) [([4], [key "[C]"]); ([5], [key "[S]"])] /\
  match encode_sequence (isort start_key) (isort id_key) t 0 OByte (Raw [97; 98; 99; 100]%N) with Ok e => Some (ids e) | _ => None end = Some [97; 98; 99; 100] /\
  wd_ids (tk_encode (isort start_key) (isort id_key) t OByte (ISingle (Raw [97; 98; 99; 100]%N)) true) = Some [[4; 97; 98; 5; 6]; [4; 98; 99; 5; 6]; [4; 99; 100; 5; 6]].
Proof.
  split; [intros d [= <-]; reflexivity|]. split; [exact (SF_bert true _ _)|]. split; [right; eexists; split; [left; reflexivity|discriminate]|]. split; vm_compute; reflexivity.
Qed.
Example C81_pair_meets : let t := wd_tok (Trunc 5 OnlyFirst 0) (Some wd_bert) None in
  pads_right (tk_padding t) /\ pair_frame true (tk_processor t) ([4], [key "[C]"]) ([5], [key "[S]"]) ([5], [key "[S]"]) /\
  match encode_sequence (isort start_key) (isort id_key) t 1 OByte (Raw [120]%N) with Ok e => Some (ids e) | _ => None end = Some [120] /\
  wd_ids (tk_encode (isort start_key) (isort id_key) t OByte (IDual (Raw [97; 98; 99]%N) (Raw [120]%N)) true) = Some [[4; 97; 5; 120; 5]; [4; 98; 5; 120; 5]; [4; 99; 5; 120; 5]].
Proof. split; [intros d E; discriminate E|]. split; [exact (PF_bert true _ _)|]. split; vm_compute; reflexivity. Qed.
Example C81_negative_meets : let t := wd_tok (Trunc 1 LongestFirst (-1)) None None in
  match encode_sequence (isort start_key) (isort id_key) t 0 OByte (Raw [97; 98; 99]%N) with Ok e => Some (ids e) | _ => None end = Some [97; 98; 99] /\
  wd_ids (tk_encode (isort start_key) (isort id_key) t OByte (ISingle (Raw [97; 98; 99]%N)) true) = Some [[97]; []].
Proof. split; vm_compute; reflexivity. Qed.
Definition wd_template := PTemplate (map as_special [([83]%N, 0)] ++ PSeq false 0 :: map as_special [([84]%N, 0)]) [] [([83]%N, ([1], [[83]%N])); ([84]%N, ([2], [[84]%N]))].
Example C81_template_meets : let t := wd_tok (Trunc 4 LongestFirst 1) (Some wd_template) None in
  single_frame true (tk_processor t) ([1], [[83]%N]) ([2], [[84]%N]) /\
  wd_ids (tk_encode (isort start_key) (isort id_key) t OByte (ISingle (Raw [97; 98; 99; 100]%N)) true) = Some [[1; 97; 98; 2]; [1; 98; 99; 2]; [1; 99; 100; 2]].
Proof. split; [exact (SF_template true [([83]%N, 0)] 0 [([84]%N, 0)] _ _)|vm_compute; reflexivity]. Qed.
