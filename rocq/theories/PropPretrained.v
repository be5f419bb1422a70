(** C73: the ready-made tokenizers decode what they encode. *)
From Verif Require Import Base BaseProofs Utf8Model Utf8Proofs EncodingModel BpeModel BpeTokProofs BpeSaveModel AddedVocabModel AddedVocabSpec AddedFindProofs DecoderModel
  PreTokenizerModel PreTokenizerSpec ProcessorModel PipelineModel PipelineSpec PipelineProofs TokensSpec PreTokenizedModel ReturnSpec WordPieceModel PropByteLevel PropPipeline
  RoundTripSpec RoundTripBpeProofs RoundTripEndProofs RoundTripProofs PretrainedModel PretrainedSpec PretrainedProofs.
Open Scope Z_scope.

(** * GPT-2 *)

(** What the ids decode to: the tokens stand for the bytes of the text, a space in front of it if
    the setting asks for one; spaces come back except those of the last token, other bytes as
    characters of the byte-level alphabet. *)
Theorem C73_gpt2_partial : forall sort_start sort_id, sorts start_key sort_start -> sorts id_key sort_id ->
  forall v order file b, byte_vocab v -> Permutation order v -> bpe_from_files v order file = Ok b ->
  forall u prefix, (prefix = true -> un_letter u 32 = false /\ un_number u 32 = false) ->
  forall trim ot x add skip, clean_inputs x -> ot <> OInvalid ->
  let r := gpt2 u b prefix trim in
  exists e ks, tk_encode sort_start sort_id (rd_tok r) ot x add = Ok (Some e) /\
    shown_all (rd_model r) (rd_added r) skip (ids e) = map bl_render ks /\
    concat ks = concat (map (spaced prefix) (encode_texts x)) /\
    rd_decode r (ids e) skip = Ok (gpt_text ks).
Proof.
  intros ss si HS HI v order file b BV P Fb u prefix U trim ot x add skip C Hot r.
  destruct (gpt2_decodes ss si HS HI v order file b BV P Fb (C54_bpe b) u prefix U trim ot x add skip C Hot) as (e & ks & E & K & T & _ & D).
  exists e, ks. now repeat split.
Qed.
Print Assumptions C73_gpt2_partial.

(** A text comes back exactly if it is printable ASCII and its last token has no space. *)
Theorem C73_gpt2_restored : forall sort_start sort_id, sorts start_key sort_start -> sorts id_key sort_id ->
  forall v order file b, byte_vocab v -> Permutation order v -> bpe_from_files v order file = Ok b ->
  forall u trim ot s add skip, clean s -> ot <> OInvalid ->
  let r := gpt2 u b false trim in
  exists e ks, tk_encode sort_start sort_id (rd_tok r) ot (ISingle (Raw s)) add = Ok (Some e) /\
    shown_all (rd_model r) (rd_added r) skip (ids e) = map bl_render ks /\ concat ks = s /\
    (rd_decode r (ids e) skip = Ok s <-> Forall printable s /\ ~ In 32%N (last ks [])).
Proof.
  intros ss si HS HI v order file b BV P Fb u trim ot s add skip C Hot r.
  destruct (gpt2_decodes ss si HS HI v order file b BV P Fb (C54_bpe b) u false (fun H => ltac:(discriminate H)) trim ot (ISingle (Raw s)) add skip C Hot) as (e & ks & E & K & T & V & D).
  cbn [encode_texts input_texts map concat] in T. rewrite app_nil_r in T. assert (Es : spaced false s = s) by (destruct s; reflexivity). rewrite Es in T. subst s.
  exists e, ks. split; [exact E|]. split; [exact K|]. split; [reflexivity|]. fold r in D. rewrite D. rewrite <- (restored_iff ks V). split; [intros H; now injection H|now intros ->].
Qed.
Print Assumptions C73_gpt2_restored.

(** No text with any other byte comes back. *)
Theorem C73_gpt2_refuted : forall sort_start sort_id, sorts start_key sort_start -> sorts id_key sort_id ->
  forall v order file b, byte_vocab v -> Permutation order v -> bpe_from_files v order file = Ok b ->
  forall u trim ot s add skip, clean s -> ot <> OInvalid -> ~ Forall printable s ->
  let r := gpt2 u b false trim in
  exists e, tk_encode sort_start sort_id (rd_tok r) ot (ISingle (Raw s)) add = Ok (Some e) /\ rd_decode r (ids e) skip <> Ok s.
Proof.
  intros ss si HS HI v order file b BV P Fb u trim ot s add skip C Hot Np r.
  destruct (C73_gpt2_restored ss si HS HI v order file b BV P Fb u trim ot s add skip C Hot) as (e & ks & E & _ & _ & D). exists e. split; [exact E|]. intros H. apply D in H. tauto.
Qed.
Print Assumptions C73_gpt2_refuted.

(** * RoBERTa *)

(** The same for texts without "<s>" and "</s>", when special tokens are skipped.  The vocabulary
    has the two with the ids 0 and 2, and no merge makes them. *)
Theorem C73_roberta_partial : forall sort_start sort_id, sorts start_key sort_start -> sorts id_key sort_id ->
  forall v order file b, byte_vocab v -> Permutation order v -> bpe_from_files v order file = Ok b ->
  vget BOS v = Some 0 -> vget EOS v = Some 2 -> ~ makes b BOS -> ~ makes b EOS ->
  forall u prefix is_word, (prefix = true -> un_letter u 32 = false /\ un_number u 32 = false) ->
  forall ot x add, clean_inputs x -> ot <> OInvalid ->
  Forall (fun s => forall a z, s <> a ++ BOS ++ z /\ s <> a ++ EOS ++ z) (encode_texts x) ->
  exists r e ks, roberta u is_word b prefix = Ok r /\ tk_encode sort_start sort_id (rd_tok r) ot x add = Ok (Some e) /\
    shown_all (rd_model r) (rd_added r) true (ids e) = map bl_render ks /\
    concat ks = concat (map (spaced prefix) (encode_texts x)) /\
    rd_decode r (ids e) true = Ok (gpt_text ks) /\
    (gpt_text ks = concat ks <-> Forall printable (concat ks) /\ ~ In 32%N (last ks [])).
Proof.
  intros ss si HS HI v order file b BV P Fb B0 B2 M0 M2 u prefix is_word U ot x add C Hot F.
  destruct (roberta_decodes ss si HS HI v order file b BV P Fb (C54_bpe b) u prefix U B0 B2 M0 M2 is_word ot x add C Hot F) as (r & e & ks & Er & E & K & T & V & D).
  exists r, e, ks. split; [exact Er|]. split; [exact E|]. split; [exact K|]. split; [exact T|]. split; [exact D|]. exact (restored_iff ks V).
Qed.
Print Assumptions C73_roberta_partial.

(** * BERT *)

(** The tokenizer for text in lower case panics in every decoding. *)
Theorem C73_bert_uncased_refuted : forall u is_word cc mn lower wp r ids skip,
  bert u is_word cc mn lower wp true = Ok r -> rd_decode r ids skip = Panic.
Proof.
  intros u is_word cc mn lower wp r ids skip H. unfold bert in H. destruct (av_token_to_id _ _ SEP); [|discriminate]. destruct (av_token_to_id _ _ CLS); [|discriminate].
  destruct (added_by _ _) as [av| | | |]; try discriminate. cbn [bind] in H. destruct (looked_for is_word _ _ av false) as [raw| | | |]; try discriminate. cbn [bind] in H.
  destruct (looked_for is_word _ _ av true) as [nm| | | |]; try discriminate. injection H as <-. reflexivity.
Qed.
Print Assumptions C73_bert_uncased_refuted.

(** * Example *)

(** The special tokens of RoBERTa, the 256 characters and a merge of a space and "e". *)
Definition rm_vocab : vocab :=
  [(BOS, 0); ([60; 112; 97; 100; 62]%N, 1); (EOS, 2)] ++ map (fun k => (byte_char (N.of_nat k), Z.of_nat k + 3)) (seq 0 256) ++ [([196; 160; 101]%N, 259)].
Definition rm_file : str := [35; 118; 101; 114; 115; 105; 111; 110; 10; 196; 160; 32; 101; 10]%N.
Definition rm_bpe : bpe := match bpe_from_files rm_vocab rm_vocab rm_file with Ok b => b | _ => Bpe [] [] [] None None None end.
Lemma rm_unmade s : s = BOS \/ s = EOS -> ~ makes rm_bpe s.
Proof.
  intros Hs [(c & E)|(c1 & c2 & rank & new & E & F)].
  - assert (exists l, s = 60%N :: l /\ (1 < length s)%nat) as (l & -> & Hl) by (destruct Hs as [-> | ->]; eexists; (split; [reflexivity|cbn; lia])).
    assert (Big : forall x y : N, (60 = x + y -> 60 <? x = true -> False)%N) by (intros x y H1 H2; apply N.ltb_lt in H2; lia).
    unfold encode_rune in E. destruct (c <? 0x80)%N; [injection E as _ ->; cbn in Hl; lia|]. destruct (c <? 0x800)%N; [exact (Big _ _ (f_equal (hd 0%N) E) eq_refl)|].
    destruct (negb (scalarb c)); [discriminate|]. destruct (c <? 0x10000)%N; exact (Big _ _ (f_equal (hd 0%N) E) eq_refl).
  - assert (A : b_merges rm_bpe = [((35, 104), (0, 259))]) by (vm_compute; reflexivity). rewrite A in E. unfold lookup_merge in E. cbn [aget] in E.
    revert E. clear A. case (pair_eqb (c1, c2) (35, 104)); intros E; [|discriminate E]. injection E as _ E. subst new. assert (B : b_vocab rm_bpe = rm_vocab) by (vm_compute; reflexivity). rewrite B in F.
    destruct Hs as [-> | ->]; vm_compute in F; discriminate F.
Qed.
Lemma rm_meets : byte_vocab rm_vocab /\ bpe_from_files rm_vocab rm_vocab rm_file = Ok rm_bpe /\ vget BOS rm_vocab = Some 0 /\ vget EOS rm_vocab = Some 2 /\ ~ makes rm_bpe BOS /\ ~ makes rm_bpe EOS.
Proof.
  split; [split; [|split]|split; [vm_compute; reflexivity|split; [vm_compute; reflexivity|split; [vm_compute; reflexivity|split]]]].
  - assert (G : forall l : list str, (fix go l := match l with [] => true | x :: l => negb (existsb (str_eqb x) l) && go l end)%bool l = true -> NoDup l).
    { induction l as [|x l IH]; intros H; [constructor|]. apply andb_true_iff in H as [H1 H2]. constructor; [|now apply IH]. intros Hx. apply negb_true_iff in H1.
      assert (existsb (str_eqb x) l = true) by (apply existsb_exists; exists x; split; [exact Hx|now apply str_eqb_eq]). congruence. }
    apply G. vm_compute. reflexivity.
  - assert (G : forall s id, vget s rm_vocab = Some id -> vrget id (build_vocab_r rm_vocab) = Some s).
    { assert (A : forallb (fun p => match vrget (snd p) (build_vocab_r rm_vocab) with Some s => str_eqb s (fst p) | None => false end) rm_vocab = true) by (vm_compute; reflexivity).
      rewrite forallb_forall in A. intros s id H. apply aget_str_in in H. specialize (A _ H). cbn [fst snd] in A. destruct (vrget id _) as [x|]; [|discriminate]. apply str_eqb_eq in A. now subst. }
    intros s s' id H H'. apply G in H. apply G in H'. congruence.
  - intros k Hk. assert (A : forallb (fun k => match vget (byte_char (N.of_nat k)) rm_vocab with Some _ => true | None => false end) (seq 0 256) = true) by (vm_compute; reflexivity).
    rewrite forallb_forall in A. specialize (A (N.to_nat k)). rewrite N2Nat.id in A. intros E. rewrite E in A. assert (false = true) by (apply A, in_seq; lia). discriminate.
  - exact (rm_unmade BOS ltac:(now left)).
  - exact (rm_unmade EOS ltac:(now right)).
Qed.
(** " é e e" in GPT-2: the letter comes back as two characters and the last space is lost; "é" is
    not restored at all, "e e!" is.  RoBERTa in the same way. *)
Example C73_example :
  let decoded r x := match tk_encode (isort start_key) (isort id_key) (rd_tok r) OByte x true with Ok (Some e) => Some (ids e, rd_decode r (ids e) true) | _ => None end in
  decoded (gpt2 u55 rm_bpe false true) (ISingle (Raw [195; 169; 32; 101; 32; 101]%N)) = Some ([198; 172; 259; 259], Ok [195; 131; 194; 169; 32; 101; 101]%N) /\
  decoded (gpt2 u55 rm_bpe false true) (ISingle (Raw [101; 32; 101; 33]%N)) = Some ([104; 259; 36], Ok [101; 32; 101; 33]%N) /\
  match roberta u55 (fun _ => false) rm_bpe true with Ok r => decoded r (ISingle (Raw [104; 32; 101]%N)) | _ => None end = Some ([0; 35; 107; 259; 2], Ok [32; 104; 101]%N) /\
  Forall (fun s => forall a z, s <> a ++ BOS ++ z /\ s <> a ++ EOS ++ z) (encode_texts (ISingle (Raw [104; 32; 101]%N))).
Proof.
  split; [vm_compute; reflexivity|]. split; [vm_compute; reflexivity|]. split; [vm_compute; reflexivity|].
  constructor; [|constructor]. intros a z. assert (H : ~ In 60%N [104; 32; 101]%N) by (cbn; lia). split; intros E; apply H; rewrite E; apply in_or_app; right; now left.
Qed.
(** A vocabulary with the special tokens of BERT. *)
Example C73_bert_example :
  match bert u55 (fun _ => false) (fun _ => false) (fun _ => false) (fun s => s)
    (wp_from_file [(UNK, 0); (CLS, 1); (SEP, 2); (MASK, 3); ([104; 101]%N, 4)] [(UNK, 0); (CLS, 1); (SEP, 2); (MASK, 3); ([104; 101]%N, 4)]) true with
  | Ok r => match tk_encode (isort start_key) (isort id_key) (rd_tok r) OByte (ISingle (Raw [104; 101]%N)) true with Ok (Some e) => Some (ids e) | _ => None end
  | _ => None
  end = Some [1; 4; 2].
Proof. vm_compute. reflexivity. Qed.
