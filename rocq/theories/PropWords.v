(** C74: WordPiece tokenizers decode to the words of the text. *)
From Verif Require Import Base BaseProofs Utf8Model Utf8Proofs EncodingModel BpeModel BpeSaveModel WordPieceModel WordPieceSpec AddedVocabModel AddedVocabSpec AddedFindProofs DecoderModel
  PreTokenizerModel PreTokenizerSpec ProcessorModel PipelineModel PipelineSpec PipelineProofs TokensSpec PreTokenizedModel ReturnSpec RoundTripSpec PretrainedModel
  BertNormSpec WordsSpec WordsProofs WordsGlueProofs BertWordsProofs PropByteLevel PropPipeline PropReturn.
Open Scope Z_scope.

(** Any tokenizer that cuts text into words for a WordPiece model.  The words come back, those
    the model does not know as the unknown token, with spaces between them and, when cleaning up,
    none in front of [. ? ! ,].  No word begins with the prefix, the tokens of the words are named
    by their ids, and added tokens and what the processor adds are not shown. *)
Theorem C74_words_partial : forall sort_start sort_id, sorts start_key sort_start -> sorts id_key sort_id ->
  forall t u pre cut wp m av skip clean ot x add e,
  matching_ok (tk_raw t) -> matching_ok (tk_normalized t) -> with_default normalizer_ok (tk_normalizer t) ->
  tk_pre t = Some (pre_tokenize u pre) -> documented u pre = Some cut -> tk_model t = Some (always (wp_tokenize wp)) ->
  added_hidden sort_start sort_id t (shown m av skip) -> ending_hides (shown m av skip) t (dual x) add ->
  clean_inputs x -> tk_encode sort_start sort_id t ot x add = Ok (Some e) ->
  exists ws, input_words sort_start sort_id t cut x ws /\
    (Forall (fun w => starts_with (wp_prefix wp) w = false) ws -> starts_with (wp_prefix wp) (wp_unk wp) = false ->
     (forall w v id, In w ws -> piece_of wp w v -> vget v (wp_vocab wp) = Some id -> shown m av skip id = Some v) ->
     (clean = true -> Forall neat ws /\ neat (wp_unk wp)) ->
     exists xs, Forall2 (seen_as wp) ws xs /\
       decode_ids m av (Some (decode ByNew (DWordPiece (wp_prefix wp) clean))) (ids e) skip = Ok (put_together clean xs)).
Proof. intros ss si HS HI t u pre cut wp m av skip clean ot x add e. exact (words_restored ss si HS HI t u pre cut wp m av skip clean ot x add e). Qed.
Print Assumptions C74_words_partial.

(** The BERT tokenizer that keeps upper case, on texts without the special tokens: the words of the
    text with spaces around its Chinese characters and without accents. *)
Theorem C74_bert_partial : forall sort_start sort_id, sorts start_key sort_start -> sorts id_key sort_id ->
  forall v order, NoDup (map fst v) -> NoDup (map snd v) -> Permutation order v ->
  vget UNK v <> None -> vget CLS v <> None -> vget SEP v <> None -> vget MASK v <> None ->
  forall u is_word cc mn lower ot x add, clean_inputs x -> ot <> OInvalid ->
  Forall (fun s => bert_reads cc mn lower true false true s /\ forall t, In t [MASK; SEP; CLS] -> forall a z, s <> a ++ t ++ z) (encode_texts x) ->
  exists r e xs, bert u is_word cc mn lower (wp_from_file v order) false = Ok r /\ tk_encode sort_start sort_id (rd_tok r) ot x add = Ok (Some e) /\
    Forall2 (bert_sees v) (flat_map (fun s => bert_words u (bert_text true false true mn lower (runes s))) (encode_texts x)) xs /\ rd_decode r (ids e) true = Ok (tidy xs).
Proof.
  intros ss si HS HI v order Nk Ni P Eu Ec Es Ek u is_word cc mn lower ot x add C Hot F. set (wp := wp_from_file v order).
  destruct (vget CLS v) as [c|] eqn:Hc; [|now destruct Ec]. destruct (vget SEP v) as [s|] eqn:Hs; [|now destruct Es]. destruct (vget MASK v) as [k|] eqn:Hk; [|now destruct Ek].
  exact (bert_decodes ss si HS HI v order u is_word cc mn lower c s k Nk Ni P Hc Hs Hk (C54_wordpiece wp) (C71_wordpiece wp Eu) (C54_pre_tokenizers u PTBert I) (C71_pre_tokenizers u PTBert I) ot x add C Hot F).
Qed.
Print Assumptions C74_bert_partial.

(** So a text without spaces does not come back if a word but the first is none of [. ? ! ,]. *)
Theorem C74_text_refuted : forall sort_start sort_id, sorts start_key sort_start -> sorts id_key sort_id ->
  forall v order, NoDup (map fst v) -> NoDup (map snd v) -> Permutation order v ->
  vget UNK v <> None -> vget CLS v <> None -> vget SEP v <> None -> vget MASK v <> None ->
  forall u is_word cc mn lower ot s add, clean s -> ot <> OInvalid -> bert_reads cc mn lower true false true s ->
  (forall t, In t [MASK; SEP; CLS] -> forall a z, s <> a ++ t ++ z) ->
  ~ In 32%N s -> (exists w ws y, bert_words u (bert_text true false true mn lower (runes s)) = w :: ws /\ In y ws /\ ~ In y stops) ->
  exists r e, bert u is_word cc mn lower (wp_from_file v order) false = Ok r /\
    tk_encode sort_start sort_id (rd_tok r) ot (ISingle (Raw s)) add = Ok (Some e) /\ rd_decode r (ids e) true <> Ok s.
Proof.
  intros ss si HS HI v order Nk Ni P Eu Ec Es Ek u is_word cc mn lower ot s add C Hot Pl Ab N32 (w & ws & y & Ew & Hy & Ny).
  destruct (C74_bert_partial ss si HS HI v order Nk Ni P Eu Ec Es Ek u is_word cc mn lower ot (ISingle (Raw s)) add C Hot) as (r & e & xs & Er & E & F & D); [constructor; [auto|constructor]|].
  exists r, e. split; [exact Er|]. split; [exact E|]. rewrite D. intros X. injection X as X. apply N32. rewrite <- X. cbn [encode_texts input_texts flat_map] in F. rewrite app_nil_r, Ew in F.
  inversion F as [|? x ? xs' _ F']; subst. assert (exists z, In z xs' /\ ~ In z stops) as (z & Hz & Nz).
  { clear -F' Hy Ny. induction F' as [|a b l l' H F' IH]; [destruct Hy|]. destruct Hy as [->|Hy].
    - exists b. split; [now left|]. destruct H as [[_ ->]|[_ ->]]; [exact Ny|]. intros [H|[H|[H|[H|[]]]]]; discriminate H.
    - destruct (IH Hy) as (z & Hz & Nz). exists z. split; [now right|exact Nz]. }
  exact (tidy_space x xs' z Hz Nz).
Qed.
Print Assumptions C74_text_refuted.

(** * Example *)

(** The text [He don't.x], where the vocabulary has no [x]. *)
Definition bw_vocab : vocab :=
  [(UNK, 0); (CLS, 1); (SEP, 2); (MASK, 3); ([72]%N, 4); ([35; 35; 101]%N, 5); ([100; 111; 110]%N, 6); ([39]%N, 7); ([116]%N, 8); ([46]%N, 9)].
Definition bw_text : str := [72; 101; 32; 100; 111; 110; 39; 116; 46; 120]%N.
Definition bw_tok := bert u55 (fun _ => false) (fun _ => false) (fun _ => false) (fun s => s) (wp_from_file bw_vocab bw_vocab) false.
Example C74_meets : NoDup (map fst bw_vocab) /\ NoDup (map snd bw_vocab) /\ vget UNK bw_vocab <> None /\ vget CLS bw_vocab <> None /\ vget SEP bw_vocab <> None /\ vget MASK bw_vocab <> None /\
  clean bw_text /\ bert_reads (fun _ => false) (fun _ => false) (fun s => s) true false true bw_text /\ bert_text true false true (fun _ => false) (fun s => s) (runes bw_text) = bw_text /\ (forall t, In t [MASK; SEP; CLS] -> forall a z, bw_text <> a ++ t ++ z) /\
  bert_words u55 bw_text = [[72; 101]; [100; 111; 110]; [39]; [116]; [46]; [120]]%N /\
  Forall2 (bert_sees bw_vocab) (bert_words u55 bw_text) ([[72; 101]; [100; 111; 110]; [39]; [116]; [46]]%N ++ [UNK]).
Proof.
  split; [repeat constructor; cbn; intuition discriminate|]. split; [repeat constructor; cbn; intuition lia|]. split; [discriminate|]. split; [discriminate|]. split; [discriminate|]. split; [discriminate|].
  split; [exists bw_text; split; [repeat constructor; unfold scalar; lia|split; [repeat constructor; discriminate|reflexivity]]|].
  split; [split; [change (runes bw_text) with bw_text; repeat (constructor; [split; reflexivity|]); constructor|split; [exists bw_text; split; [repeat constructor; unfold scalar; lia|split; [repeat constructor; discriminate|reflexivity]]|split; [reflexivity|intros _; split; reflexivity]]]|]. split; [vm_compute; reflexivity|]. split.
  { intros t Ht a z E. assert (N : ~ In 91%N bw_text) by (cbn; intuition discriminate). apply N. rewrite E. apply in_or_app. right. apply in_or_app. left. destruct Ht as [<-|[<-|[<-|[]]]]; now left. }
  split; [vm_compute; reflexivity|].
  assert (K : forall w p, runes w = p -> forall id, vget w bw_vocab = Some id -> w = encode p -> p <> [] -> zlen p <= 100 -> bert_knows bw_vocab w).
  { intros w p R id E Ep Np L. split; [rewrite R; exact L|]. exists [(id, p)]. rewrite R. rewrite <- (app_nil_r p) at 1. apply greedy_piece; [exact Np|cbn [piece_key]; rewrite <- Ep; exact E| |constructor].
    intros q r X Hl. rewrite app_nil_r in X. subst p. rewrite X, app_length in Hl. lia. }
  assert (E : bert_words u55 bw_text = [[72; 101]; [100; 111; 110]; [39]; [116]; [46]; [120]]%N) by (vm_compute; reflexivity). rewrite E. cbn [app].
  constructor.
  { left. split; [|reflexivity]. split; [cbn; lia|]. exists [(4, [72]%N); (5, [101]%N)]. change (runes [72; 101]%N) with ([72] ++ [101] ++ [])%N.
    apply greedy_piece; [discriminate|reflexivity| |apply greedy_piece; [discriminate|reflexivity| |constructor]].
    - intros q r X Hl. destruct q as [|a [|b [|d q]]]; cbn in Hl; try lia; [|injection X as <- <- X; discriminate X]. injection X as <- <- X. reflexivity.
    - intros q r X Hl. destruct q as [|a [|b q]]; cbn in Hl; try lia. injection X as <- X. discriminate X. }
  constructor; [left; split; [apply (K [100; 111; 110]%N [100; 111; 110]%N eq_refl 6 eq_refl eq_refl); [discriminate|cbn; lia]|reflexivity]|].
  constructor; [left; split; [apply (K [39]%N [39]%N eq_refl 7 eq_refl eq_refl); [discriminate|cbn; lia]|reflexivity]|].
  constructor; [left; split; [apply (K [116]%N [116]%N eq_refl 8 eq_refl eq_refl); [discriminate|cbn; lia]|reflexivity]|].
  constructor; [left; split; [apply (K [46]%N [46]%N eq_refl 9 eq_refl eq_refl); [discriminate|cbn; lia]|reflexivity]|].
  constructor; [|constructor]. right. split; [|reflexivity]. intros [_ (ps & G)]. change (runes [120]%N) with [120]%N in G. inversion G as [|f p rest id ps' Np E1 E2 G' X1 X2 X3]. clear -Np E1 X2.
  destruct p as [|a [|b p]]; [now destruct Np| |discriminate X2]. injection X2 as -> ->. discriminate E1.
Qed.
Example C74_example :
  match bw_tok with
  | Ok r => match tk_encode (isort start_key) (isort id_key) (rd_tok r) OByte (ISingle (Raw bw_text)) true with Ok (Some e) => Some (ids e, rd_decode r (ids e) true) | _ => None end
  | _ => None
  end = Some ([1; 4; 5; 6; 7; 8; 9; 0; 2], Ok [72; 101; 32; 100; 111; 110; 32; 39; 32; 116; 46; 32; 91; 85; 78; 75; 93]%N).
Proof. vm_compute. reflexivity. Qed.
(** [e], an acute accent of its own and two Chinese characters: the accent goes, and the characters
    are words of their own. *)
Definition bw_vocab2 : vocab := [(UNK, 0); (CLS, 1); (SEP, 2); (MASK, 3); ([101]%N, 4); (encode_rune 0x4e2d, 5); (encode_rune 0x6587, 6)].
Definition bw_text2 : str := encode [101; 0x301; 0x4e2d; 0x6587]%N.
Definition bw_mark (c : N) : bool := (c =? 0x301)%N.
Example C74_chinese_meets : clean bw_text2 /\ bert_reads (fun _ => false) bw_mark (fun s => s) true false true bw_text2 /\
  bert_text true false true bw_mark (fun s => s) (runes bw_text2) = encode [101; 32; 0x4e2d; 32; 32; 0x6587; 32]%N /\
  bert_words u55 (bert_text true false true bw_mark (fun s => s) (runes bw_text2)) = [[101]%N; encode_rune 0x4e2d; encode_rune 0x6587].
Proof.
  split; [|split; [split; [|split; [|split; [reflexivity|intros _; split; reflexivity]]]|split; vm_compute; reflexivity]].
  - exists [101; 0x301; 0x4e2d; 0x6587]%N. split; [repeat (constructor; [left; reflexivity|]); constructor|]. split; [repeat (constructor; [discriminate|]); constructor|reflexivity].
  - change (runes bw_text2) with [101; 0x301; 0x4e2d; 0x6587]%N. repeat (constructor; [split; reflexivity|]); constructor.
  - exists [101; 0x301; 32; 0x4e2d; 32; 32; 0x6587; 32]%N. split; [repeat (constructor; [left; reflexivity|]); constructor|]. split; [repeat (constructor; [discriminate|]); constructor|reflexivity].
Qed.
Example C74_chinese :
  match bert u55 (fun _ => false) (fun _ => false) bw_mark (fun s => s) (wp_from_file bw_vocab2 bw_vocab2) false with
  | Ok r => match tk_encode (isort start_key) (isort id_key) (rd_tok r) OByte (ISingle (Raw bw_text2)) true with Ok (Some e) => Some (ids e, rd_decode r (ids e) true) | _ => None end
  | _ => None
  end = Some ([1; 4; 5; 6; 2], Ok (encode [101; 32; 0x4e2d; 32; 0x6587]%N)).
Proof. vm_compute. reflexivity. Qed.
