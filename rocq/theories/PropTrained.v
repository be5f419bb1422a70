(** C78: a trained byte-level tokenizer decodes what it encodes. *)
From Verif Require Import Base BaseProofs Utf8Model Utf8Proofs EncodingModel BpeModel AddedVocabModel AddedVocabSpec AddedFindProofs DecoderModel PreTokenizerModel PreTokenizerSpec PreTokenizedModel ProcessorModel PipelineModel PipelineSpec ReturnSpec RoundTripSpec
  LoadedModel LoadedSpec TrainerModel TrainerSpec PropByteLevel PropPipeline PropReturn PropRoundTrip PropTrainer TrainedModel TrainedSpec TrainedProofs.
Open Scope Z_scope.
Open Scope list_scope.

(** If no merge made a text that was there before: training on any corpus gives a tokenizer that
    decodes every input in which no special token is written; the special tokens have the ids after the vocabulary. *)
Theorem C78_round_trip_partial : forall sort_start sort_id, sorts start_key sort_start -> sorts id_key sort_id ->
  forall u is_word addr pick cf specials arrival wc fuel t news prefix po pa,
  byte_settings cf -> special_settings cf wc specials -> picks_highest pick ->
  train_bpe addr pick cf arrival wc fuel = Ok (t, news) -> NoDup (snd t) ->
  (prefix = true -> un_letter u 32 = false /\ un_number u 32 = false) ->
  exists a, train_tokenizer u is_word (PTByteLevel prefix) po (Some DByteLevel) pa addr pick cf specials arrival wc fuel = Ok a /\
    (forall i s, nth_error (tc_special cf) i = Some s -> av_token_to_id (as_lookups a) (as_added a) s = Some (zlen (fst t) + Z.of_nat i)) /\
    forall ot x add, clean_inputs x -> ot <> OInvalid -> Forall (free_of (tc_special cf)) (encode_texts x) ->
      ends_with (ids_from (zlen (fst t)) (length specials)) (dual x) add po pa ->
      exists e, tk_encode sort_start sort_id (as_tok a) ot x add = Ok (Some e) /\
        as_decode a (ids e) true = Ok (concat (map (spaced prefix) (encode_texts x))).
Proof.
  intros ss si HS HI u is_word addr pick cf specials arrival wc fuel t news prefix po pa Bs Ss P D ND U.
  exact (trained_round ss si HS HI u is_word C54_bpe addr pick cf arrival wc fuel t news specials prefix po pa P D Bs Ss ND U).
Qed.
Print Assumptions C78_round_trip_partial.

(** Refuted otherwise: if a text was made twice, and there are as many special tokens as texts made
    again, then a special token has the id of another token of the vocabulary. *)
Theorem C78_ids_refuted : forall u is_word pre po dec pa addr pick cf specials arrival wc fuel t news a,
  picks_highest pick -> train_bpe addr pick cf arrival wc fuel = Ok (t, news) -> tc_prefix cf = None -> tc_suffix cf = None -> tc_limit cf = None ->
  special_settings cf wc specials -> ~ NoDup (snd t) -> zlen (snd t) <= zlen (fst t) + zlen specials ->
  train_tokenizer u is_word pre po dec pa addr pick cf specials arrival wc fuel = Ok a ->
  exists s w i, In s (tc_special cf) /\ vget w (fst t) = Some i /\ w <> s /\
    av_token_to_id (as_lookups a) (as_added a) s = Some i /\ av_token_to_id (as_lookups a) (as_added a) w = Some i.
Proof. exact trained_clash. Qed.
Print Assumptions C78_ids_refuted.

(** * Examples *)

(** Byte-level training with the special token <s>. *)
Definition tr_special : list added_token := [AT [60; 115; 62]%N false false false false].
Definition tr_cf (size : Z) : tcfg := TCfg 0 size [[60; 115; 62]]%N None (map (fun k => byte_char (N.of_nat k)) (seq 0 256)) None None.
Definition tr_wc : list (str * Z) := [([97; 98]%N, 3); ([98; 97; 98]%N, 2)].
Definition tr_done (size : Z) (wc : list (str * Z)) : tables * list ((Z * Z) * Z) :=
  match train_bpe no_addr ex_first (tr_cf size) [0%nat] wc 100 with Ok r => r | _ => (([], []), []) end.
Lemma tr_byte size : byte_settings (tr_cf size).
Proof. split; [reflexivity|]. split; [reflexivity|]. split; [reflexivity|]. intros k Hk. apply in_map_iff. exists (N.to_nat k). rewrite N2Nat.id. split; [reflexivity|]. apply in_seq. lia. Qed.
Lemma tr_specials size wc : Forall (fun e => ~ In 60%N (fst e)) wc -> special_settings (tr_cf size) wc tr_special.
Proof.
  intros W. split; [reflexivity|]. split; [constructor; [intros []|constructor]|]. constructor; [|constructor]. split; [discriminate|]. split; [exists [60; 115; 62]%N; split; [repeat (constructor; [left; reflexivity|]); constructor|reflexivity]|].
  split; [intros H; apply in_map_iff in H as (k & E & H); assert (A : forallb (fun k => negb (str_eqb (byte_char (N.of_nat k)) [60; 115; 62]%N)) (seq 0 256) = true) by (vm_compute; reflexivity);
          rewrite forallb_forall in A; specialize (A k H); rewrite E in A; discriminate A|].
  intros w n a z H E. rewrite Forall_forall in W. apply (W (w, n) H). cbn [fst]. rewrite E. apply in_or_app. right. now left.
Qed.
Fixpoint nodupb (l : list str) : bool := match l with [] => true | s :: l' => negb (existsb (str_eqb s) l') && nodupb l' end.
Lemma nodupb_ok l : nodupb l = true -> NoDup l.
Proof.
  induction l as [|s l IH]; intros H; constructor; cbn [nodupb] in H; apply andb_true_iff in H as [H1 H2]; [|auto]. intros K. apply negb_true_iff in H1.
  assert (existsb (str_eqb s) l = true) by (apply existsb_exists; exists s; split; [exact K|apply str_eqb_refl]). congruence.
Qed.
(** The tokens ab and bab are made, each once. *)
Example C78_meets : byte_settings (tr_cf 300) /\ special_settings (tr_cf 300) tr_wc tr_special /\ picks_highest ex_first /\
  train_bpe no_addr ex_first (tr_cf 300) [0%nat] tr_wc 100 = Ok (tr_done 300 tr_wc) /\ NoDup (snd (fst (tr_done 300 tr_wc))) /\ length (snd (tr_done 300 tr_wc)) = 2%nat /\
  (let s := [97; 98; 32; 195; 169]%N in clean s /\ free_of (tc_special (tr_cf 300)) s) /\
  ends_with (ids_from (zlen (fst (fst (tr_done 300 tr_wc)))) (length tr_special)) false true (Some (PBert (PTok [60; 115; 62]%N 258) (PTok [60; 115; 62]%N 258))) None.
Proof.
  split; [apply tr_byte|]. split; [apply tr_specials; repeat (constructor; [cbn; intuition discriminate|]); constructor|]. split; [apply ex_first_highest|]. split; [vm_compute; reflexivity|].
  split; [apply nodupb_ok; vm_compute; reflexivity|]. split; [vm_compute; reflexivity|]. split.
  - cbv zeta. split; [exists [97; 98; 32; 233]%N; split; [repeat (constructor; [left; reflexivity|]); constructor|split; [repeat (constructor; [discriminate|]); constructor|reflexivity]]|].
    intros x a z [<-|[]] E. assert (In 60%N [97; 98; 32; 195; 169]%N) by (rewrite E; apply in_or_app; right; now left). cbn in H. intuition discriminate.
  - split; [split; [constructor|intros _; split; vm_compute; reflexivity]|exact I].
Qed.
Definition tr_encoded (size : Z) (wc : list (str * Z)) (s : str) : option (list Z * res str) :=
  match train_tokenizer u55 (fun _ => false) (PTByteLevel false) None (Some DByteLevel) None no_addr ex_first (tr_cf size) tr_special [0%nat] wc 100 with
  | Ok a => match tk_encode (isort start_key) (isort id_key) (as_tok a) OByte (ISingle (Raw s)) true with
            | Ok (Some e) => Some (ids e, as_decode a (ids e) true)
            | _ => None
            end
  | _ => None
  end.
Example C78_example : tr_encoded 300 tr_wc [98; 97; 98; 97; 98]%N = Some ([257; 256], Ok [98; 97; 98; 97; 98]%N).
Proof. vm_compute. reflexivity. Qed.
(** The corpus of C47 makes a text twice: pqbc is spelled with an id that has no token, zpqbc with that of <s>. *)
Example C78_lost_example : map (fun e => tr_encoded 300 ex_wc (fst e)) ex_wc =
  [Some ([256], Ok [112; 113]%N); Some ([262], Ok [120; 112; 113; 98; 99]%N); Some ([259], Ok []); Some ([260], Ok [121; 112; 113; 98]%N); Some ([263], Ok [])].
Proof. vm_compute. reflexivity. Qed.
Example C78_ids_meets : special_settings (tr_cf 300) ex_wc tr_special /\ ~ NoDup (snd (fst (tr_done 300 ex_wc))) /\
  zlen (snd (fst (tr_done 300 ex_wc))) <= zlen (fst (fst (tr_done 300 ex_wc))) + zlen tr_special.
Proof.
  split; [apply tr_specials; repeat (constructor; [cbn; intuition discriminate|]); constructor|]. split; [|vm_compute; discriminate].
  intros H. pose proof (proj1 (NoDup_nth_error _) H 259%nat 261%nat) as K. assert (X : 259%nat = 261%nat) by (apply K; [apply Nat.ltb_lt; vm_compute; reflexivity|vm_compute; reflexivity]). discriminate X.
Qed.

(** Refuted for some corpus: words of the corpus are lost, though no special token is written in
    them; for the word pqbc also if special tokens are not skipped. *)
Theorem C78_lost_refuted : exists cf specials wc, byte_settings cf /\ special_settings cf wc specials /\
  exists pick a, picks_highest pick /\ train_tokenizer u55 (fun _ => false) (PTByteLevel false) None (Some DByteLevel) None no_addr pick cf specials [0%nat] wc 100 = Ok a /\
    (exists w e, In w (map fst wc) /\ w <> [] /\ tk_encode (isort start_key) (isort id_key) (as_tok a) OByte (ISingle (Raw w)) true = Ok (Some e) /\
       as_decode a (ids e) false = Ok []) /\
    exists w e, In w (map fst wc) /\ w <> [] /\ tk_encode (isort start_key) (isort id_key) (as_tok a) OByte (ISingle (Raw w)) true = Ok (Some e) /\
       as_decode a (ids e) true = Ok [] /\ as_decode a (ids e) false = Ok [60; 115; 62]%N.
Proof.
  exists (tr_cf 300), tr_special, ex_wc. split; [apply tr_byte|]. split; [apply C78_ids_meets|]. exists ex_first.
  set (go := fun s => match train_tokenizer u55 (fun _ => false) (PTByteLevel false) None (Some DByteLevel) None no_addr ex_first (tr_cf 300) tr_special [0%nat] ex_wc 100 with
    | Ok a => match tk_encode (isort start_key) (isort id_key) (as_tok a) OByte (ISingle (Raw s)) true with Ok (Some e) => Some (as_decode a (ids e) true, as_decode a (ids e) false) | _ => None end
    | _ => None end).
  assert (G1 : go [112; 113; 98; 99]%N = Some (Ok [], Ok [])) by (vm_compute; reflexivity).
  assert (G2 : go [122; 112; 113; 98; 99]%N = Some (Ok [], Ok [60; 115; 62]%N)) by (vm_compute; reflexivity).
  unfold go in G1, G2. clear go. destruct (train_tokenizer _ _ _ _ _ _ _ _ _ _ _ _ _) as [a| | | |]; try discriminate G1. exists a. split; [apply ex_first_highest|]. split; [reflexivity|]. split.
  - exists [112; 113; 98; 99]%N. destruct (tk_encode _ _ _ _ (ISingle (Raw [112; 113; 98; 99]%N)) _) as [[e|]| | | |]; try discriminate G1. exists e.
    injection G1 as _ G1. split; [cbn; tauto|]. split; [discriminate|]. split; [reflexivity|exact G1].
  - exists [122; 112; 113; 98; 99]%N. destruct (tk_encode _ _ _ _ (ISingle (Raw [122; 112; 113; 98; 99]%N)) _) as [[e|]| | | |]; try discriminate G2. exists e.
    injection G2 as G2 G3. split; [cbn; tauto|]. split; [discriminate|]. split; [reflexivity|]. split; [exact G2|exact G3].
Qed.
Print Assumptions C78_lost_refuted.
