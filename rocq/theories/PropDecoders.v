(** Properties C31, C32, C33 and C49: decoders. *)
From Coq Require Import FinFun.
From Verif Require Import Base BaseProofs Utf8Model Utf8Proofs PatternModel BpeModel BpeSaveModel AddedVocabModel DecoderModel
  DecoderSpec DecoderProofs.
Open Scope Z_scope.

(** ** C31: the byte-level alphabet *)

(** Every byte has a character, one visible Unicode character, the byte's own if that is
    visible; no other keys are in the map. *)
Theorem C31_alphabet b :
  ((b < 256)%N -> exists r, aget N.eqb b generate_bytes_char = Some (encode_rune r) /\ scalar r /\ ~ invisible r /\
                    (~ invisible b -> r = b)) /\
  ((256 <= b)%N -> aget N.eqb b generate_bytes_char = None).
Proof.
  rewrite <- bytes_char_gen. split.
  - intros H. destruct (byte_char_spec b H) as (r & R1 & R2 & _ & R4 & R5). exists r.
    unfold byte_char in R2. pose proof (encode_rune_nonempty r).
    destruct (aget N.eqb b bytes_char) as [c|] eqn:E; [|exfalso; congruence]. subst c. auto.
  - intros H. apply (ag_none N.eqb N.eqb_eq). intros I.
    replace (map fst bytes_char) with (map N.of_nat (seq 0 256)) in I by (vm_compute; reflexivity).
    apply in_map_iff in I. destruct I as (k & <- & I). apply in_seq in I. lia.
Qed.

(** Different bytes have different characters, and the map used for decoding is the
    inverse. *)
Theorem C31_bijection :
  (forall b1 b2 c, aget N.eqb b1 generate_bytes_char = Some c -> aget N.eqb b2 generate_bytes_char = Some c -> b1 = b2) /\
  (forall b c, aget str_eqb c char_bytes = Some b <-> aget N.eqb b generate_bytes_char = Some c).
Proof.
  rewrite <- bytes_char_gen.
  assert (N1 : NoDup (map fst bytes_char)).
  { replace (map fst bytes_char) with (map N.of_nat (seq 0 256)) by (vm_compute; reflexivity).
    apply FinFun.Injective_map_NoDup; [intros x y E; lia|apply seq_NoDup]. }
  assert (INV : forall b c, In (b, c) bytes_char -> aget str_eqb c char_bytes = Some b).
  { intros b c I. assert (A : forallb (fun p => match aget str_eqb (snd p) char_bytes with Some b => (b =? fst p)%N | None => false end)
                     bytes_char = true) by (vm_compute; reflexivity).
    rewrite forallb_forall in A. specialize (A _ I). cbn [fst snd] in A.
    destruct (aget str_eqb c char_bytes); [|discriminate]. apply N.eqb_eq in A. congruence. }
  split.
  - intros b1 b2 c H1 H2. apply (ag_in N.eqb N.eqb_eq) in H1, H2. apply INV in H1, H2. congruence.
  - intros b c. split.
    + intros H. apply (ag_in str_eqb str_eqb_eq) in H. unfold char_bytes in H. apply in_map_iff in H.
      destruct H as ((b', c') & E & I). cbn in E. injection E as -> ->.
      apply (ag_nodup N.eqb N.eqb_eq); assumption.
    + intros H. apply (ag_in N.eqb N.eqb_eq) in H. apply INV, H.
Qed.

(** Decoding the rendering of any bytes, however the rendering is cut into tokens, yields
    the bytes. *)
Theorem C31_decode m (s : str) (toks : list str) : Forall (fun b => b < 256)%N s ->
  concat toks = concat (map byte_char s) -> decode m DByteLevel toks = Ok s.
Proof. intros H E. cbn [decode]. rewrite E. f_equal. exact (bl_decode_render s H). Qed.

(** The same token by token, as a part of a sequence of decoders. *)
Theorem C31_decode_chain (l : list str) : Forall (Forall (fun b => b < 256)%N) l ->
  decode_chain DByteLevel (map (fun s => concat (map byte_char s)) l) = Ok l.
Proof.
  intros H. cbn [decode_chain]. f_equal. unfold bl_chain. rewrite map_map.
  induction H as [|s l Hs H IH]; [reflexivity|]. cbn [map]. rewrite IH. f_equal. exact (bl_decode_render s Hs).
Qed.

Example C31_ex : decode ByNew DByteLevel [[196; 160; 104]; [195; 131]; [194; 169]]%N = Ok [32; 104; 195; 169]%N /\
  concat (map byte_char [32; 104; 195; 169]%N) = [196; 160; 104; 195; 131; 194; 169]%N.
Proof. split; vm_compute; reflexivity. Qed.

Print Assumptions C31_alphabet.
Print Assumptions C31_bijection.
Print Assumptions C31_decode.
Print Assumptions C31_decode_chain.

(** ** C32: byte fallback *)

(** Exact outcome for every token list without malformed "<0x..>" tokens. *)
Theorem C32_byte_fallback_partial toks : ~ Exists malformed toks ->
  exists out, decode_chain DByteFallback toks = Ok out /\ byte_decoded toks out /\
    forall out', byte_decoded toks out' -> out' = out.
Proof.
  intros H. cbn [decode_chain]. pose proof (bf_chain_spec toks []) as S.
  destruct (bf_chain [] toks) as [out| | | |]; try contradiction. destruct S as (_ & S).
  specialize (S [] (Forall2_nil _)). exists out. split; [reflexivity|]. split; [exact S|].
  intros out' H'. exact (byte_decoded_fun _ _ _ H' S).
Qed.

(** Any malformed token, which should pass unchanged, ends the program. *)
Theorem C32_malformed_refuted toks : Exists malformed toks -> decode_chain DByteFallback toks = Panic.
Proof.
  intros H. cbn [decode_chain]. pose proof (bf_chain_spec toks []) as S.
  destruct (bf_chain [] toks) as [out| | | |]; try contradiction; [|reflexivity]. destruct S as (S & _). contradiction.
Qed.

Example C32_ex : (* "<0xE5>" "<0x8f>" "<0xab>" "a" "<0xE5>" "<0x8F>" *)
  decode_chain DByteFallback [angle 69 53; angle 56 102; angle 97 98; [97]; angle 69 53; angle 56 70]%N
  = Ok [[229; 143; 171]; [97]; [239; 191; 189]; [239; 191; 189]]%N.
Proof. reflexivity. Qed.
Example C32_malformed_ex : malformed (angle 90 90) /\ decode_chain DByteFallback [[97]; angle 90 90]%N = Panic.
Proof.
  split; [|reflexivity]. pose proof (token_byte_spec (angle 90 90)) as T. exact T.
Qed.

Print Assumptions C32_byte_fallback_partial.
Print Assumptions C32_malformed_refuted.

(** ** C33: decoders are total and compose *)

Theorem C33_fuse m toks : exists l, decode_chain DFuse toks = Ok l /\ l = [concat toks] /\
  (m = ByNew -> decode m DFuse toks = Ok (concat toks)).
Proof.
  exists [concat toks]. split; [reflexivity|]. split; [reflexivity|]. intros ->. cbn. rewrite app_nil_r. reflexivity.
Qed.

Theorem C33_sequence ds toks out : decode_chain (DSequence ds) toks = Ok out <-> applied_in_order ds toks out.
Proof. exact (sequence_spec ds toks out). Qed.

(** Decode is the concatenation of what DecodeChain yields. *)
Theorem C33_decode_joins d toks l : decode_chain d toks = Ok l -> d <> DByteLevel ->
  decode ByNew d toks = Ok (concat l).
Proof. intros H N. destruct d; try congruence; unfold decode; rewrite H; reflexivity. Qed.

Theorem C33_bpe suffix toks : suffix <> [] ->
  exists out, decode_chain (DBpe suffix) toks = Ok out /\ bpe_decoded suffix toks out /\
    forall out', bpe_decoded suffix toks out' -> out' = out.
Proof.
  intros H. exists (bpe_chain suffix toks). split; [reflexivity|].
  pose proof (bpe_chain_spec suffix H toks) as S. split; [exact S|].
  intros out' H'. exact (bpe_decoded_fun _ _ _ _ H' S).
Qed.

Theorem C33_wordpiece prefix clean toks :
  exists out, decode_chain (DWordPiece prefix clean) toks = Ok out /\ wp_decoded prefix clean toks out.
Proof. exists (wpd_chain prefix clean toks). split; [reflexivity|apply wpd_chain_spec]. Qed.

Theorem C33_ctc pad delim clean toks l : pad <> [] -> (clean = true -> delim <> []) -> runs_of toks l ->
  exists outs, Forall2 (ctc_decoded pad delim clean) l outs /\
    decode_chain (DCtc pad delim clean) toks = Ok (filter (fun t => negb (str_eqb t [])) outs).
Proof.
  intros Hp Hd H. destruct (ctc_chain_spec pad delim clean toks l Hp Hd H) as (outs & A & B).
  exists outs. split; [exact A|]. cbn [decode_chain]. rewrite B. f_equal.
  clear. induction outs as [|[|c t] outs IH]; [reflexivity|exact IH|]. cbn. f_equal. exact IH.
Qed.
(** Every token list has runs. *)
Theorem C33_ctc_runs toks : exists l, runs_of toks l.
Proof. exact (runs_of_total toks). Qed.

(** Strip: exact outcome, and the exact condition under which it crashes. *)
Theorem C33_strip_partial content start stop toks :
  ~ Exists (too_short content (Z.to_nat start) (Z.to_nat stop)) toks ->
  exists out, decode_chain (DStrip content start stop) toks = Ok out /\
    Forall2 (stripped content (Z.to_nat start) (Z.to_nat stop)) toks out.
Proof.
  intros H. pose proof (strip_chain_spec content start stop toks) as S.
  destruct (decode_chain (DStrip content start stop) toks) as [out| | | |]; try contradiction.
  exists out. split; [reflexivity|apply S].
Qed.
Theorem C33_strip_refuted content start stop toks :
  Exists (too_short content (Z.to_nat start) (Z.to_nat stop)) toks ->
  decode_chain (DStrip content start stop) toks = Panic.
Proof.
  intros H. pose proof (strip_chain_spec content start stop toks) as S.
  destruct (decode_chain (DStrip content start stop) toks) as [out| | | |]; try contradiction; [|reflexivity].
  destruct S as (_ & S). contradiction.
Qed.

(** Without Strip, byte fallback and Replace nothing fails. *)
Theorem C33_total_partial d toks : harmless d ->
  (exists out, decode_chain d toks = Ok out) /\ exists s, decode ByNew d toks = Ok s.
Proof.
  intros H. destruct (harmless_total d H toks) as (out & E). split; [exists out; exact E|].
  destruct d; try (unfold decode; rewrite E; eexists; reflexivity). eexists. reflexivity.
Qed.

(** Objects made by DefaultBpeDecoder, DefaultWordpieceDecoder or DefaultCTC crash on every
    token list. *)
Theorem C33_default_refuted d toks :
  (exists suffix, d = DBpe suffix) \/ (exists prefix clean, d = DWordPiece prefix clean) \/
  (exists pad delim clean, d = DCtc pad delim clean) ->
  decode ByDefault d toks = Panic.
Proof. intros [(s & ->)|[(p & c & ->)|(p & dl & c & ->)]]; reflexivity. Qed.

Example C33_bpe_ex : (* "hel" "lo</w>" "you</w>" *)
  decode ByNew (DBpe [60; 47; 119; 62]%N) [[104; 101; 108]; [108; 111; 60; 47; 119; 62]; [121; 111; 117; 60; 47; 119; 62]]%N
  = Ok [104; 101; 108; 108; 111; 32; 121; 111; 117]%N.
Proof. reflexivity. Qed.
Example C33_wordpiece_ex : (* "my" "na" "##me" "." *)
  decode ByNew (DWordPiece [35; 35]%N true) [[109; 121]; [110; 97]; [35; 35; 109; 101]; [46]]%N
  = Ok [109; 121; 32; 110; 97; 109; 101; 46]%N.
Proof. reflexivity. Qed.
Example C33_ctc_ex : (* "<p>" "h" "h" "<p>" "i" "|" *)
  decode ByNew (DCtc [60; 112; 62]%N [124]%N true) [[60; 112; 62]; [104]; [104]; [60; 112; 62]; [105]; [124]]%N = Ok [104; 105; 32]%N.
Proof. reflexivity. Qed.
Example C33_strip_ex : (* "__a_" *)
  decode ByNew (DStrip [95]%N 1 1) [[95; 95; 97; 95]]%N = Ok [95; 97]%N /\ decode ByNew (DStrip [95]%N 1 0) [[]] = Panic /\
  too_short [95]%N 1 0 [].
Proof.
  split; [reflexivity|]. split; [reflexivity|]. exists []. split; [constructor|]. split; [constructor|]. cbn. lia.
Qed.
Example C33_strip_hyp_ex : ~ Exists (too_short [95]%N 1 1) [[95; 95; 97; 95]]%N.
Proof.
  intros E. inversion E as [? ? (l & C & F & _)|? ? E']; [|inversion E'].
  rewrite (characters_fun _ _ _ C (explode_characters _)) in F. cbn in F.
  repeat match goal with H : Forall _ (_ :: _) |- _ => inversion H; subst; clear H end. discriminate.
Qed.
Example C33_total_ex : harmless (DSequence [DWordPiece [35; 35]%N true; DFuse; DSequence [DMetaspace [95]%N true; DByteLevel]]) /\
  applied_in_order [DWordPiece [35; 35]%N false; DFuse] [[97]; [35; 35; 98]; [99]]%N [[97; 98; 32; 99]]%N.
Proof.
  split.
  - apply h_seq. intros d [<-|[<-|[<-|[]]]]; [constructor|constructor|].
    apply h_seq. intros d [<-|[<-|[]]]; constructor.
  - apply C33_sequence. reflexivity.
Qed.

Print Assumptions C33_fuse.
Print Assumptions C33_sequence.
Print Assumptions C33_decode_joins.
Print Assumptions C33_bpe.
Print Assumptions C33_wordpiece.
Print Assumptions C33_ctc.
Print Assumptions C33_ctc_runs.
Print Assumptions C33_strip_partial.
Print Assumptions C33_strip_refuted.
Print Assumptions C33_total_partial.
Print Assumptions C33_default_refuted.

(** ** C49: decoding ids *)

(** The tokens are those of the known ids in order, without special ones iff asked; a decoder
    gets them all, otherwise they are joined with spaces. *)
Theorem C49_decode m av dec ids skip :
  exists toks, shown (av_id_to_token m av) (is_special av) skip ids toks /\
    (forall toks', shown (av_id_to_token m av) (is_special av) skip ids toks' -> toks' = toks) /\
    match dec with
    | Some f => decode_ids m av dec ids skip = f toks
    | None => exists s, decode_ids m av dec ids skip = Ok s /\ spaced toks s
    end.
Proof.
  exists (tokens_of_ids m av skip ids). pose proof (tokens_of_ids_spec m av skip ids) as S.
  split; [exact S|]. split; [intros t H; exact (shown_fun _ _ _ _ _ _ H S)|].
  destruct dec as [f|]; [reflexivity|]. eexists. split; [reflexivity|apply join_sp_spec].
Qed.

(** What the vocabulary and the special tokens are: added tokens first, then the model's. *)
Theorem C49_lookup m av i t : 
  (aget Z.eqb i (av_map_r av) = Some t -> av_id_to_token m av i = Some t) /\
  (aget Z.eqb i (av_map_r av) = None -> av_id_to_token m av i = bm_i2t m i) /\
  (is_special av t = true <-> In t (av_set av)).
Proof.
  unfold av_id_to_token, is_special. split; [intros ->; reflexivity|]. split; [intros ->; reflexivity|].
  rewrite existsb_exists. split.
  - intros (x & I & E). apply str_eqb_eq in E. congruence.
  - intros I. exists t. split; [exact I|apply str_eqb_refl].
Qed.

Example C49_ex :
  let m := Base (fun _ => None) (fun i => if i =? 1 then Some [97]%N else if i =? 2 then Some [98]%N else None) 3 in
  let av := AV [([91; 83; 93]%N, 3)] [(3, [91; 83; 93]%N)] [] [] [[91; 83; 93]%N] [] [] in
  decode_ids m av None [3; 1; 7; 2; 3] true = Ok [97; 32; 98]%N /\
  decode_ids m av None [3; 1; 7; 2] false = Ok [91; 83; 93; 32; 97; 32; 98]%N.
Proof. cbn. auto. Qed.

Print Assumptions C49_decode.
Print Assumptions C49_lookup.
