(** Properties of the post-processors (C39-C43, C56). *)
From Verif Require Import Base Utf8Model EncodingModel EncodingSpec EncodingProofs ProcessorModel ProcessorSpec ProcessorProofs.
Open Scope Z_scope.

(** Compute the result of an example. *)
Ltac run :=
  match goal with
  | |- exists r, ?t = Ok (Some r) /\ _ =>
      let v := eval vm_compute in t in
      match v with Ok (Some ?x) => exists x; split; [vm_compute; reflexivity|] end
  end.
(** Two encodings for the examples: tokens "a" "Ġb" with one overflowing part, and "c". *)
Definition ex_a : Encoding :=
  mkEnc [7; 8] [0; 0] [[97]%N; [196; 160; 98]%N] [(0, 1); (1, 3)] [0; 0] [1; 1] [0; 1]
    [mkEnc [9] [0] [[99]%N] [(3, 4)] [0] [1] [2] [] None] None.
Definition ex_b : Encoding := mkEnc [5] [1] [[100]%N] [(0, 1)] [0] [1] [0] [] (Some []).
Definition ex_cls := PTok [60; 115; 62]%N 1.
Definition ex_sep := PTok [47; 115]%N 2.
Example ex_a_meets : two_parallel ex_a /\ rangeable ex_a /\ fresh ex_a /\ 0 < enc_len ex_a.
Proof.
  split; [|split; [|split; [now left|reflexivity]]].
  - split; [repeat split|repeat constructor].
  - split; [left; reflexivity|]. split; [exact I|]. constructor; [|constructor]. split; [left; reflexivity|]. split; [exact I|constructor].
Qed.
Example ex_b_meets : two_parallel ex_b /\ rangeable ex_b /\ fresh ex_b /\ 0 < enc_len ex_b.
Proof.
  split; [|split; [|split; [now right|reflexivity]]].
  - split; [repeat split|constructor].
  - split; [left; reflexivity|]. split; [intros k r []|constructor].
Qed.

(** ** C39: BERT *)

(** [CLS] A [SEP] with type 0, then B [SEP] with type 1, and the same around every
    overflowing part; for all encodings. *)
Theorem C39_bert : forall cls sep e pair,
  exists r, process (PBert cls sep) e pair true = Ok (Some r) /\
    same r (with_pair (framed [cls] [sep] 0 e) (option_map (framed [] [sep] 1) pair)).
Proof. intros. destruct (bert_framed cls sep e pair) as (r & H & _ & S0). exists r. auto. Qed.
Print Assumptions C39_bert.
Example C39_bert_ids : exists r, process (PBert ex_cls ex_sep) ex_a (Some ex_b) true = Ok (Some r) /\
  ids r = [1; 7; 8; 2; 5; 2] /\ type_ids r = [0; 0; 0; 0; 1; 1] /\ special r = [1; 0; 0; 1; 0; 1] /\
  attention r = [1; 1; 1; 1; 1; 1] /\ map ids (overflowing r) = [[1; 9; 2; 5; 2]].
Proof. run. auto. Qed.

(** Without special tokens: A, then B. *)
Theorem C39_bert_plain : forall cls sep e pair,
  (pair <> None -> deep_ranges e) -> (forall p, pair = Some p -> deep_ranges p) ->
  exists r, process (PBert cls sep) e pair false = Ok (Some r) /\ same r (with_pair e pair).
Proof.
  intros cls sep e pair H1 H2. destruct (default_same e pair H1 H2) as (r & E & S0). cbn. unfold bert_process. cbn. rewrite E. cbn. eauto.
Qed.
Print Assumptions C39_bert_plain.

(** AddedTokens is exactly what is added. *)
Theorem C39_count : forall cls sep, adds_exactly (PBert cls sep).
Proof. exact bert_adds. Qed.
Print Assumptions C39_count.

(** Attribute lists stay parallel, in the overflowing parts too. *)
Theorem C39_parallel : forall cls sep e pair r,
  two_parallel e -> (forall p, pair = Some p -> two_parallel p) ->
  process (PBert cls sep) e pair true = Ok (Some r) -> two_parallel r.
Proof.
  intros cls sep e pair r P Q H. destruct (bert_framed cls sep e pair) as (r' & H' & _ & S0). rewrite H' in H. injection H as <-.
  apply (two_parallel_same _ _ S0), with_pair_parallel; [now apply framed_parallel|].
  intros x. destruct pair as [p|]; cbn; [|discriminate]. intros [= <-]. apply framed_parallel. now apply Q.
Qed.
Print Assumptions C39_parallel.

(** ** C40: RoBERTa *)

(** With trimOffsets: offsets trimmed, then <s> A </s> with type 0 and </s> B </s> with type 1. *)
Theorem C40_roberta_partial : forall cls sep prefix e pair,
  two_parallel e -> (forall p, pair = Some p -> two_parallel p) ->
  exists r e1 p1, process (PRoberta cls sep true prefix) e pair true = Ok (Some r) /\
    all_trimmed prefix e e1 /\
    match pair, p1 with Some p, Some q => all_trimmed prefix p q | None, None => True | _, _ => False end /\
    same r (with_pair (framed [cls] [sep] 0 e1) (option_map (framed [sep] [sep] 1) p1)) /\
    two_parallel r.
Proof.
  intros cls sep prefix e pair P Q. destruct (roberta_framed cls sep prefix e pair P Q) as (r & e1 & p1 & H & _ & T1 & T2 & P1 & P2 & S0).
  exists r, e1, p1. do 4 (split; [assumption|]). apply (two_parallel_same _ _ S0), with_pair_parallel; [now apply framed_parallel|].
  intros x. destruct p1 as [q|]; cbn; [|discriminate]. intros [= <-]. apply framed_parallel. now apply P2.
Qed.
Print Assumptions C40_roberta_partial.
Example C40_roberta_ids : exists r, process (PRoberta ex_cls ex_sep true true) ex_a (Some ex_b) true = Ok (Some r) /\
  ids r = [1; 7; 8; 2; 2; 5; 2] /\ type_ids r = [0; 0; 0; 0; 1; 1; 1] /\ special r = [1; 0; 0; 1; 1; 0; 1] /\
  offsets r = [(0, 0); (0, 1); (2, 3); (0, 0); (0, 0); (0, 1); (0, 0)].
Proof. run. auto. Qed.

(** Trimming moves the ends of an offset pair inwards only, for every token. *)
Theorem C40_trim_inside : forall prefix e e' i tok o,
  trimmed prefix e e' -> nth_error (tokens e) i = Some tok -> nth_error (offsets e) i = Some o ->
  0 <= fst o <= snd o -> zlen (runes tok) <= snd o ->
  exists o', nth_error (offsets e') i = Some o' /\ fst o <= fst o' <= snd o' /\ snd o' <= snd o.
Proof.
  intros prefix e e' i tok o (_ & _ & _ & _ & _ & _ & _ & H) Ht Ho Hr Hl. destruct (spaced_exists tok) as (a & b & Sp).
  assert (B : Z.of_nat b <= snd o).
  { unfold zlen in Hl. destruct Sp as [(mid & x & y & E & _)|[E ->]]; rewrite E in Hl; rewrite ?app_length, ?repeat_length in Hl; lia. }
  eexists. split; [exact (H i tok o a b Ht Ho Sp Hr B)|]. unfold without_spaces. cbn [fst snd]. destruct (_ && _)%bool; lia.
Qed.
Print Assumptions C40_trim_inside.
Example C40_trim_example : exists e', process_offsets true ex_a = Ok e' /\ trimmed true ex_a e' /\ nth_error (offsets e') 1 = Some (2, 3).
Proof.
  destruct (process_offsets_trimmed true ex_a) as (o & E & T & _); [repeat split|]. exists (set_offsets ex_a o). split; [exact E|]. split; [exact T|].
  vm_compute in E. injection E as <-. reflexivity.
Qed.

(** AddedTokens is exactly what is added. *)
Theorem C40_count : forall cls sep trim prefix, adds_exactly (PRoberta cls sep trim prefix).
Proof. exact roberta_adds. Qed.
Print Assumptions C40_count.

(** With trimOffsets = false no encoding is ever processed: Process panics, or returns nil
    when no special tokens are wanted. *)
Theorem C40_no_trim_refuted : forall cls sep prefix e pair,
  process (PRoberta cls sep false prefix) e pair true = Panic /\
  process (PRoberta cls sep false prefix) e pair false = Ok None.
Proof. intros. split; reflexivity. Qed.
Print Assumptions C40_no_trim_refuted.

(** ** C41: templates *)

(** The result is the concatenation of the pieces in template order; the overflowing parts
    are combined as by merging. *)
Theorem C41_concat : forall single both toks e pair add p l,
  rangeable e -> (forall q, pair = Some q -> rangeable q) ->
  Forall (available toks pair add) (template_of single both pair) ->
  flat_map (piece_parts toks e pair add) (template_of single both pair) = p :: l ->
  exists r, process (PTemplate single both toks) e pair add = Ok (Some r) /\
    flat r = concat_enc (p :: l) /\ same r (joined p l).
Proof.
  intros single both toks e pair add p l R1 R2 F E. destruct (template_cases single both toks e pair add R1 R2) as [A _].
  specialize (A F). rewrite E in A. destruct A as (r & H & S0 & _). exists r. split; [exact H|]. split; [|exact S0].
  destruct S0 as [-> _]. apply joined_flat.
Qed.
Print Assumptions C41_concat.
Definition ex_toks : special_tokens := [([67]%N, ([1], [[67]%N])); ([83]%N, ([2], [[83]%N]))].
Definition ex_single := [PSpecial [67]%N 0; PSeq false 0; PSpecial [83]%N 0].
Definition ex_both := [PSpecial [67]%N 0; PSeq false 0; PSpecial [83]%N 0; PSeq true 1; PSpecial [83]%N 1].
Example C41_concat_example : Forall (available ex_toks (Some ex_b) true) (template_of ex_single ex_both (Some ex_b)) /\
  exists r, process (PTemplate ex_single ex_both ex_toks) ex_a (Some ex_b) true = Ok (Some r) /\
  ids r = [1; 7; 8; 2; 5; 2] /\ type_ids r = [0; 0; 0; 0; 1; 1] /\ special r = [1; 0; 0; 1; 0; 1].
Proof. split; [repeat constructor; cbn; discriminate|]. run. auto. Qed.

(** It panics exactly when a piece is missing: $B without a pair, or an unknown special
    token; a template without any usable piece gives nil. *)
Theorem C41_panics_partial : forall single both toks e pair add,
  rangeable e -> (forall q, pair = Some q -> rangeable q) ->
  (process (PTemplate single both toks) e pair add = Panic <->
   ~ Forall (available toks pair add) (template_of single both pair)) /\
  (process (PTemplate single both toks) e pair add = Ok None <->
   Forall (available toks pair add) (template_of single both pair) /\
   flat_map (piece_parts toks e pair add) (template_of single both pair) = []).
Proof.
  intros single both toks e pair add R1 R2. destruct (template_cases single both toks e pair add R1 R2) as [A B].
  destruct (Forall_dec _ (available_dec toks pair add) (template_of single both pair)) as [F|F].
  - specialize (A F). destruct (flat_map (piece_parts toks e pair add) (template_of single both pair)) as [|p l].
    + rewrite A. split; split; try discriminate; try tauto.
    + destruct A as (r & -> & _). split; split; try discriminate; try tauto. intros [_ X]. discriminate.
  - rewrite (B F). split; split; try discriminate; tauto.
Qed.
Print Assumptions C41_panics_partial.
Example C41_panics_example : process (PTemplate [PSeq false 0; PSeq true 1] [] []) ex_a None true = Panic /\
  process (PTemplate [PSpecial [67]%N 0] [] ex_toks) ex_a None false = Ok None.
Proof. split; reflexivity. Qed.

(** The number of tokens: each use of a sequence, and AddedTokens for the special tokens. *)
Theorem C41_count : forall single both toks e pair add r,
  process (PTemplate single both toks) e pair add = Ok (Some r) ->
  enc_len r = uses false (template_of single both pair) * enc_len e
            + uses true (template_of single both pair) * pair_len pair
            + (if add then added_tokens (PTemplate single both toks) (is_pair pair) else 0).
Proof. exact template_len. Qed.
Print Assumptions C41_count.

(** Type ids, tokens, offsets and masks stay parallel to the ids, but the words do not: one
    word per added special token is missing, so the lists are parallel only if none is added. *)
Theorem C41_words_refuted : forall single both toks e pair add r,
  rangeable e -> (forall q, pair = Some q -> rangeable q) ->
  parallel e -> (forall p, pair = Some p -> parallel p) ->
  (forall id t, In (id, t) toks -> length (snd t) = length (fst t)) ->
  process (PTemplate single both toks) e pair add = Ok (Some r) ->
  length (type_ids r) = length (ids r) /\ length (tokens r) = length (ids r) /\ length (offsets r) = length (ids r) /\
  length (special r) = length (ids r) /\ length (attention r) = length (ids r) /\
  (parallel r <-> add = false \/ added_tokens (PTemplate single both toks) (is_pair pair) = 0).
Proof.
  intros single both toks e pair add r R1 R2 P Q T H. destruct (template_words single both toks e pair add r R1 R2 P Q T H) as [(H1 & H2 & H3 & H4 & H5) W].
  do 5 (split; [assumption|]). unfold enc_len, zlen in W. unfold parallel. destruct add.
  - split.
    + intros (_ & _ & _ & _ & _ & X). right. lia.
    + intros [X|X]; [discriminate|]. do 5 (split; [assumption|]). lia.
  - split; [now left|]. intros _. do 5 (split; [assumption|]). lia.
Qed.
Print Assumptions C41_words_refuted.
Example C41_words_example : exists r, process (PTemplate ex_single ex_both ex_toks) ex_a None true = Ok (Some r) /\
  ids r = [1; 7; 8; 2] /\ words r = [0; 1] /\ (forall id t, In (id, t) ex_toks -> length (snd t) = length (fst t)).
Proof. run. do 2 (split; [reflexivity|]). intros id t [[= <- <-]|[[= <- <-]|[]]]; reflexivity. Qed.

(** ** C42: sequences *)

(** A sequence runs its processors one after the other, the result of each being the input
    of the next. *)
Theorem C42_composes : forall l1 l2 e pair add,
  process (PSequence (l1 ++ l2)) e pair add =
  do r <- process (PSequence l1) e pair add;
  match r with
  | Some r => process (PSequence l2) r pair add
  | None => match l2 with [] => Ok None | _ => Panic end
  end.
Proof.
  intros. rewrite !sequence_run, run_all_app. destruct (run_all l1 (Some e) pair add) as [[r|]| | | |]; cbn [bind]; try reflexivity.
  - now rewrite sequence_run.
  - destruct l2; reflexivity.
Qed.
Print Assumptions C42_composes.
(** Which processors add what they say. *)
Theorem C42_members : (forall cls sep, adds_exactly (PBert cls sep)) /\
  (forall cls sep trim prefix, adds_exactly (PRoberta cls sep trim prefix)) /\
  (forall prefix trim, adds_exactly (PByteLevel prefix trim)) /\
  (forall single both toks, uses false single = 1 -> uses false both = 1 -> uses true both = 1 ->
     adds_exactly (PTemplate single both toks)).
Proof.
  split; [exact bert_adds|]. split; [exact roberta_adds|]. split; [exact bytelevel_adds|exact template_adds].
Qed.
Print Assumptions C42_members.
(** Without a pair the input occurs once and AddedTokens is right. *)
Theorem C42_single_partial : forall l e add r, Forall adds_exactly l ->
  process (PSequence l) e None add = Ok (Some r) ->
  enc_len r = enc_len e + (if add then added_tokens (PSequence l) false else 0).
Proof.
  intros l e add r F H. rewrite sequence_run in H. rewrite (sequence_len l F e None add r H). cbn [pair_len is_pair]. destruct add; lia.
Qed.
Print Assumptions C42_single_partial.
(** With a pair each of the processors adds the pair once more. *)
Theorem C42_pair_refuted : forall l e p add r, Forall adds_exactly l ->
  process (PSequence l) e (Some p) add = Ok (Some r) ->
  enc_len r = enc_len e + zlen l * enc_len p + (if add then added_tokens (PSequence l) true else 0) /\
  (zlen l <> 1 -> 0 < enc_len p ->
   enc_len r <> enc_len e + enc_len p + (if add then added_tokens (PSequence l) true else 0)).
Proof.
  intros l e p add r F H. rewrite sequence_run in H. pose proof (sequence_len l F e (Some p) add r H) as X. cbn [pair_len is_pair] in X.
  split; [exact X|]. intros N L. rewrite X. set (k := if add then _ else 0) in *. clearbody k. intros Y.
  assert (Z0 : (zlen l - 1) * enc_len p = 0) by lia. apply Z.mul_eq_0 in Z0. lia.
Qed.
Print Assumptions C42_pair_refuted.
(** The usual byte-level + BERT sequence shows the second sequence twice. *)
Theorem C42_pair_twice_refuted : forall prefix cls sep e p r,
  two_parallel e -> two_parallel p -> rangeable e -> rangeable p ->
  process (PSequence [PByteLevel prefix false; PBert cls sep]) e (Some p) true = Ok (Some r) ->
  ids r = pt_id cls :: ids e ++ ids p ++ pt_id sep :: ids p ++ [pt_id sep].
Proof.
  intros prefix cls sep e p r P Q R1 R2 H. rewrite sequence_run in H. cbn [run_all] in H. apply bind_Ok_inv in H as (x & Hx & H).
  destruct (bytelevel_same prefix false e (Some p) true P) as (b & e1 & p1 & Hb & -> & Ep & Sb); auto.
  { intros q [= <-]. exact Q. }
  { intros q [= <-]. exact R2. }
  destruct p1 as [p1|]; [|contradiction]. subst p1. rewrite Hx in Hb. injection Hb as ->. cbn [run_all] in H.
  rewrite bind_Ok_r in H. destruct (bert_framed cls sep b (Some p)) as (r' & Hr & _ & Sr). rewrite Hr in H. injection H as ->.
  destruct Sr as [Sr _], Sb as [Sb _]. apply (f_equal ids) in Sr. apply (f_equal ids) in Sb. cbn in Sr, Sb. rewrite Sr, Sb. cbn. now rewrite <- !app_assoc.
Qed.
Print Assumptions C42_pair_twice_refuted.
Example C42_twice_example : exists r, process (PSequence [PByteLevel true false; PBert ex_cls ex_sep]) ex_a (Some ex_b) true = Ok (Some r) /\
  ids r = [1; 7; 8; 5; 2; 5; 2].
Proof. run. reflexivity. Qed.

(** ** C43: the limit *)

(** One sequence: exactly the limit, or everything if it fits. *)
Theorem C43_single_partial : forall proc t e add r,
  counts proc -> parallel e -> 0 <= tr_stride t < tr_max t - count_of proc false add -> tr_strategy t <> OnlySecond ->
  post_process proc (Some t) None e None add = Ok (Some r) ->
  enc_len r = Z.min (tr_max t) (enc_len e + count_of proc false add).
Proof.
  intros proc t e add r C P L St H. destruct (truncate_encodings_single e _ _ _ P L St) as (e' & T & Le & _).
  rewrite (post_truncated proc t e None add e' None r C eq_refl T H). cbn [pair_len is_pair]. lia.
Qed.
Print Assumptions C43_single_partial.
Example C43_single_example : exists r, post_process (Some (PBert ex_cls ex_sep)) (Some (Trunc 3 LongestFirst 0)) None ex_a None true = Ok (Some r) /\ ids r = [1; 7; 2].
Proof. run. reflexivity. Qed.

(** Pairs: within the limit if the sequence that is cut leaves more than the stride. *)
Theorem C43_pair_partial : forall proc t e p add r,
  counts proc -> parallel e -> parallel p -> 0 <= tr_stride t -> 0 < tr_max t - count_of proc true add ->
  tr_stride t < tr_max t - count_of proc true add - match tr_strategy t with OnlyFirst => enc_len p | _ => enc_len e end ->
  post_process proc (Some t) None e (Some p) add = Ok (Some r) -> enc_len r <= tr_max t.
Proof.
  intros proc t e p add r C P Q St Mx L H. destruct (tr_strategy t) eqn:E.
  - destruct (truncate_encodings_longest_first_bounded e p _ _ P Q St Mx L) as (e' & p' & T & Le). rewrite <- E in T.
    rewrite (post_truncated proc t e (Some p) add e' (Some p') r C eq_refl T H). cbn [pair_len is_pair]. lia.
  - destruct (truncate_encodings_only_first e p _ _ P St Mx L) as (e' & T & Le). rewrite <- E in T.
    rewrite (post_truncated proc t e (Some p) add e' (Some p) r C eq_refl T H). cbn [pair_len is_pair]. lia.
  - destruct (truncate_encodings_only_second e p _ _ Q St Mx L) as (p' & T & Le). rewrite <- E in T.
    rewrite (post_truncated proc t e (Some p) add e (Some p') r C eq_refl T H). cbn [pair_len is_pair]. lia.
Qed.
Print Assumptions C43_pair_partial.
Example C43_pair_example : exists r, post_process (Some (PBert ex_cls ex_sep)) (Some (Trunc 5 OnlyFirst 0)) None ex_a (Some ex_b) true = Ok (Some r) /\ ids r = [1; 7; 2; 5; 2].
Proof. run. reflexivity. Qed.

(** If the special tokens fill the limit (or leave no more than the stride), nothing is cut
    and the limit is exceeded. *)
Theorem C43_full_refuted : forall cls sep e max stride strat,
  parallel e -> strat <> OnlySecond -> 0 <= max - 2 <= stride -> max - 2 < enc_len e ->
  exists r, post_process (Some (PBert cls sep)) (Some (Trunc max strat stride)) None e None true = Ok (Some r) /\
    enc_len r = enc_len e + 2 /\ max < enc_len r.
Proof.
  intros cls sep e max stride strat P St L1 L2. unfold post_process. rewrite post_truncate_limit. cbn [tr_strategy tr_max tr_stride count_of is_pair added_tokens].
  assert (T : truncate_encodings e None strat (max - 2) stride = Ok (e, None)).
  { unfold truncate_encodings. destruct (Z.eqb_spec (max - 2) 0) as [E|E]; [reflexivity|]. rewrite Z.add_0_r.
    replace (enc_len e <? max - 2) with false by lia.
    pose proof (truncate_ignoring_error_len e (max - 2) stride P ltac:(lia) ltac:(lia)) as X. destruct strat; [| |congruence].
    - rewrite longest_first_closed. pose proof (len_nonneg e).
      replace (enc_len e - Z.max 0 (Z.of_nat (Z.to_nat (enc_len e - (max - 2))) - Z.max 0 (0 - enc_len e + 1))) with (max - 2) by lia. rewrite X. reflexivity.
    - replace (enc_len e - (max - 2) <? enc_len e) with true by lia. replace (enc_len e - (enc_len e - (max - 2))) with (max - 2) by lia. rewrite X. reflexivity. }
  rewrite T. cbn [bind fst snd]. destruct (bert_framed cls sep e None) as (r & H & _). rewrite H. cbn [bind]. exists r. split; [reflexivity|].
  pose proof (bert_adds cls sep e None true r H) as X. cbn [pair_len is_pair added_tokens] in X. lia.
Qed.
Print Assumptions C43_full_refuted.
Example C43_full_example : exists r, post_process (Some (PBert ex_cls ex_sep)) (Some (Trunc 2 LongestFirst 0)) None ex_a None true = Ok (Some r) /\ ids r = [1; 7; 8; 2].
Proof. run. reflexivity. Qed.
(** Two long sequences under LongestFirst: the second is never cut. *)
Theorem C43_pair_refuted : forall cls sep e p max stride,
  parallel e -> parallel p -> 0 <= stride -> 0 < max - 3 <= enc_len e -> max - 3 < enc_len p ->
  exists r, post_process (Some (PBert cls sep)) (Some (Trunc max LongestFirst stride)) None e (Some p) true = Ok (Some r) /\ max < enc_len r.
Proof.
  intros cls sep e p max stride P Q St [L0 L1] L2. unfold post_process. rewrite post_truncate_limit. cbn [tr_strategy tr_max tr_stride count_of is_pair added_tokens].
  destruct (truncate_encodings_longest_first_exceeds e p (max - 3) stride P Q St L0 L1 L2) as (e' & p' & T & Le). rewrite T. cbn [bind fst snd].
  destruct (bert_framed cls sep e' (Some p')) as (r & H & _). rewrite H. cbn [bind]. exists r. split; [reflexivity|].
  pose proof (bert_adds cls sep e' (Some p') true r H) as X. cbn [pair_len is_pair added_tokens] in X. lia.
Qed.
Print Assumptions C43_pair_refuted.

(** ** C56: which sequence a token belongs to *)

(** Templates record for the last use of each sequence exactly the positions of its tokens. *)
Theorem C56_template_partial : forall single both toks e pair add r before b ty after src,
  fresh e -> (forall q, pair = Some q -> fresh q) ->
  process (PTemplate single both toks) e pair add = Ok (Some r) ->
  template_of single both pair = before ++ PSeq b ty :: after -> (forall ty', ~ In (PSeq b ty') after) ->
  (if b then pair else Some e) = Some src -> 0 < enc_len src ->
  range_of r (if b then 1 else 0) =
    Some (zrange (length (ids src)) (enc_len (concat_enc (flat_map (piece_parts toks e pair add) before)))).
Proof. exact template_range. Qed.
Print Assumptions C56_template_partial.
Example C56_template_example : exists r, process (PTemplate ex_single ex_both ex_toks) ex_a (Some ex_b) true = Ok (Some r) /\
  range_of r 0 = Some [1; 2] /\ range_of r 1 = Some [4] /\ map (token2sequence r) [0; 1; 4; 5] = [None; Some 0; Some 1; None].
Proof. run. auto. Qed.
(** The byte-level processor does too. *)
Theorem C56_bytelevel_partial : forall prefix trim e p add r,
  fresh e -> fresh p -> 0 < enc_len e -> 0 < enc_len p ->
  process (PByteLevel prefix trim) e (Some p) add = Ok (Some r) ->
  range_of r 0 = Some (zrange (length (ids e)) 0) /\ range_of r 1 = Some (zrange (length (ids p)) (enc_len e)).
Proof. exact bytelevel_range. Qed.
Print Assumptions C56_bytelevel_partial.
Example C56_bytelevel_example : exists r, process (PByteLevel true true) ex_a (Some ex_b) true = Ok (Some r) /\ range_of r 0 = Some [0; 1] /\ range_of r 1 = Some [2].
Proof. run. auto. Qed.
(** BERT and RoBERTa processing forget the sequences: every token, also of the second
    sequence, is said to belong to sequence 0. *)
Theorem C56_forgotten_refuted : forall q e p r i,
  (exists cls sep, q = PBert cls sep) \/ (exists cls sep prefix, q = PRoberta cls sep true prefix) ->
  process q e (Some p) true = Ok (Some r) -> i <= enc_len r ->
  range_of r 0 = None /\ range_of r 1 = None /\ token2sequence r i = Some 0.
Proof.
  intros q e p r i Hq H L. assert (S0 : seq_ranges r = Some []).
  { destruct Hq as [(cls & sep & ->)|(cls & sep & prefix & ->)]; [exact (bert_range _ _ _ _ _ H)|exact (roberta_range _ _ _ _ _ _ _ H)]. }
  unfold range_of. rewrite S0. split; [reflexivity|]. split; [reflexivity|]. apply token2sequence_no_ranges; auto.
Qed.
Print Assumptions C56_forgotten_refuted.
Example C56_forgotten_example : exists r, process (PBert ex_cls ex_sep) ex_a (Some ex_b) true = Ok (Some r) /\ token2sequence r 4 = Some 0 /\ nth_error (ids r) 4 = nth_error (ids ex_b) 0.
Proof. run. auto. Qed.
