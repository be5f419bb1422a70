(** Property C66: textual templates, the template builder and its validation. Theorems
    only; proofs are in TemplateBuildProofs.v. *)
From Verif Require Import Base BaseProofs EncodingModel EncodingSpec EncodingProofs ProcessorModel ProcessorSpec ProcessorProofs
  TemplateBuildModel TemplateBuildSpec TemplateBuildProofs.
Open Scope Z_scope.

(** ** Texts *)

(** A word is parsed to the piece it denotes; every other word is an error. *)
Theorem C66_piece : forall s p,
  (new_piece s = Ok p <-> piece_text s p) /\ (new_piece s = Err <-> forall q, ~ piece_text s q).
Proof.
  intros s p. split; [apply piece_exact|]. split.
  - intros H q T. apply piece_exact in T. congruence.
  - intros H. destruct (piece_cases s) as [(q & E)|E]; [|exact E]. apply piece_exact in E. now apply H in E.
Qed.
Print Assumptions C66_piece.
(** "$B:1", "$-7", "[S]:1", "$X" and "a:b:c". *)
Example C66_piece_example : new_piece [36; 66; 58; 49]%N = Ok (PSeq true 1) /\ new_piece [36; 45; 55]%N = Ok (PSeq false (-7)) /\
  new_piece [91; 83; 93; 58; 49]%N = Ok (PSpecial [91; 83; 93]%N 1) /\ new_piece [36; 88]%N = Err /\ new_piece [97; 58; 98; 58; 99]%N = Err /\
  piece_text [36; 66; 58; 49]%N (PSeq true 1).
Proof. repeat (split; [reflexivity|]). now apply C66_piece. Qed.

(** So is a text of words between single spaces. *)
Theorem C66_template : forall s t,
  (template_from_one s = Ok t <-> template_text s t) /\ (template_from_one s = Err <-> forall u, ~ template_text s u).
Proof.
  intros s t. split; [apply template_exact|]. split.
  - intros H u T. apply template_exact in T. congruence.
  - intros H. destruct (template_cases' s) as [(q & E)|E]; [|exact E]. apply template_exact in E. now apply H in E.
Qed.
Print Assumptions C66_template.
(** "[C] $A [S] $B:1 [S]:1" *)
Definition ex_text : str := [91; 67; 93; 32; 36; 65; 32; 91; 83; 93; 32; 36; 66; 58; 49; 32; 91; 83; 93; 58; 49]%N.
Example C66_template_example : template_from_one ex_text =
  Ok [PSpecial [91; 67; 93]%N 0; PSeq false 0; PSpecial [91; 83; 93]%N 0; PSeq true 1; PSpecial [91; 83; 93]%N 1].
Proof. reflexivity. Qed.
(** Exactly the non-empty templates whose names have no space, colon or leading dollar can
    be written. *)
Theorem C66_expressible : forall t, (exists s, template_from_one s = Ok t) <-> t <> [] /\ Forall expressible t.
Proof. exact template_expressible. Qed.
Print Assumptions C66_expressible.
Example C66_expressible_example : Forall expressible [PSpecial [91; 67; 93]%N 3; PSeq true (-1)] /\ ~ expressible (PSpecial [58]%N 0).
Proof.
  split.
  - repeat constructor; cbn; try lia; try (intros H; intuition discriminate); intros r H; discriminate H.
  - cbn. intros (_ & _ & H & _). apply H. now left.
Qed.
(** An empty text, a leading or trailing space or two spaces in a row are no error: they put
    a special token with the empty name into the template, and processing panics unless a
    token with this name is given. *)
Theorem C66_spaces_refuted : forall s x y t toks both e,
  s = [] \/ s = 32%N :: y \/ s = x ++ [32%N] \/ s = x ++ 32%N :: 32%N :: y ->
  template_from_one s = Ok t -> aget str_eqb [] toks = None -> rangeable e ->
  In (PSpecial [] 0) t /\ process (PTemplate t both toks) e None true = Panic.
Proof.
  intros s x y t toks both e H T K R. assert (I : In (PSpecial [] 0) t) by (eapply empty_word, (split_empty_word s x y); eauto). split; [exact I|].
  destruct (template_cases t both toks e None true R ltac:(discriminate)) as [_ P]. apply P. cbn. intros F.
  apply (proj1 (Forall_forall _ _) F) in I. cbn in I. now apply I.
Qed.
Print Assumptions C66_spaces_refuted.
(** "$A  $B" *)
Example C66_spaces_example : template_from_one [36; 65; 32; 32; 36; 66]%N = Ok [PSeq false 0; PSpecial [] 0; PSeq true 0].
Proof. reflexivity. Qed.

(** ** The builder *)

(** Each call sets its part and nothing else; a text that is no template panics. *)
Theorem C66_builder : forall st st',
  (forall s, build_step st (BSingle (TOne s)) = Ok st' ->
     template_text s (ts_single st') /\ ts_pair st' = ts_pair st /\ ts_toks st' = ts_toks st) /\
  (forall s, build_step st (BPair (TOne s)) = Ok st' ->
     template_text s (ts_pair st') /\ ts_single st' = ts_single st /\ ts_toks st' = ts_toks st) /\
  (forall l, build_step st (BTokens l) = Ok st' ->
     ts_single st' = ts_single st /\ ts_pair st' = ts_pair st /\
     forall k t, aget str_eqb k (ts_toks st') = Some t <-> exists v, last_bound k l v /\ t = ([v], [k])) /\
  (forall s, (forall t, ~ template_text s t) -> build_step st (BSingle (TOne s)) = Panic /\ build_step st (BPair (TOne s)) = Panic).
Proof.
  intros st st'. split; [|split; [|split]].
  - intros s. cbn [build_step new_template]. destruct (template_from_one s) as [t| | | |] eqn:E; try discriminate. intros X. injection X as <-.
    cbn. split; [now apply template_exact|auto].
  - intros s. cbn [build_step new_template]. destruct (template_from_one s) as [t| | | |] eqn:E; try discriminate. intros X. injection X as <-.
    cbn. split; [now apply template_exact|auto].
  - intros l X. injection X as <-. cbn [ts_single ts_pair ts_toks update_added]. split; [reflexivity|]. split; [reflexivity|]. intros k t. apply new_tokens_get.
  - intros s H. apply (C66_template s []) in H. cbn [build_step new_template]. now rewrite H.
Qed.
Print Assumptions C66_builder.
(** Whatever the calls, AddedTokens announces what processing adds. *)
Theorem C66_counts : forall ops st e pair add r,
  build ops default_template = Ok st ->
  process (PTemplate (ts_single st) (ts_pair st) (ts_toks st)) e pair add = Ok (Some r) ->
  let tpl := template_of (ts_single st) (ts_pair st) pair in
  enc_len r = uses false tpl * enc_len e + uses true tpl * pair_len pair + (if add then ts_added st (is_pair pair) else 0).
Proof.
  intros ops st e pair add r B H tpl. assert (C : counted st) by (eapply build_counted, B; split; reflexivity).
  rewrite (template_len _ _ _ _ _ _ _ H). destruct C as [C1 C2]. unfold ts_added. rewrite C1, C2. reflexivity.
Qed.
Print Assumptions C66_counts.
Definition ex_ops : list build_op := [BPair (TOne ex_text); BTokens [([91; 67; 93]%N, 1); ([91; 83; 93]%N, 5); ([91; 83; 93]%N, 2)]].
Example C66_counts_example : exists st, build ex_ops default_template = Ok st /\ ts_added st true = 3 /\ ts_added st false = 0 /\
  aget str_eqb [91; 83; 93]%N (ts_toks st) = Some ([2], [[91; 83; 93]%N]) /\ default_added st false = 3.
Proof. eexists. split; [reflexivity|]. repeat split; reflexivity. Qed.

(** ** Validate *)

(** A pair template of sequences only is valid iff it uses both. *)
Theorem C66_validate_partial : forall st, ~ Exists is_special_token (ts_pair st) ->
  (validate st = Ok tt <-> (exists ty, In (PSeq false ty) (ts_pair st)) /\ (exists ty, In (PSeq true ty) (ts_pair st))) /\
  (validate st = Ok tt \/ validate st = Err).
Proof. exact validate_plain. Qed.
Print Assumptions C66_validate_partial.
(** With any special token it panics. *)
Theorem C66_validate_refuted : forall st, Exists is_special_token (ts_pair st) -> validate st = Panic.
Proof. exact validate_special. Qed.
Print Assumptions C66_validate_refuted.
Example C66_validate_example : exists st, build ex_ops default_template = Ok st /\ validate st = Panic.
Proof. eexists. split; reflexivity. Qed.
(** A missing special token is never reported: the template is valid, and processing any
    single sequence panics. *)
Theorem C66_missing_refuted : forall st id ty,
  ~ Exists is_special_token (ts_pair st) -> (exists ty, In (PSeq false ty) (ts_pair st)) -> (exists ty, In (PSeq true ty) (ts_pair st)) ->
  In (PSpecial id ty) (ts_single st) -> aget str_eqb id (ts_toks st) = None ->
  validate st = Ok tt /\
  forall e, rangeable e -> process (PTemplate (ts_single st) (ts_pair st) (ts_toks st)) e None true = Panic.
Proof.
  intros st id ty N A B I K. split; [apply (validate_plain st N); auto|]. intros e R.
  destruct (template_cases (ts_single st) (ts_pair st) (ts_toks st) e None true R ltac:(discriminate)) as [_ P]. apply P. cbn [template_of]. intros F.
  apply (proj1 (Forall_forall _ _) F) in I. cbn in I. now apply I.
Qed.
Print Assumptions C66_missing_refuted.
(** "[C] $A" for one sequence, "$A $B:1" for two, no special tokens. *)
Example C66_missing_example : exists st, build [BSingle (TOne [91; 67; 93; 32; 36; 65]%N); BPair (TOne [36; 65; 32; 36; 66; 58; 49]%N)] default_template = Ok st /\
  validate st = Ok tt /\ In (PSpecial [91; 67; 93]%N 0) (ts_single st) /\ ts_toks st = [].
Proof. eexists. split; [reflexivity|]. repeat split; cbn; auto. Qed.

(** The default template fails its own validation and drops the second sequence. *)
Theorem C66_default_refuted : validate default_template = Err /\
  forall e p add, rangeable e -> rangeable p ->
    exists r, process (PTemplate (ts_single default_template) (ts_pair default_template) (ts_toks default_template)) e (Some p) add = Ok (Some r) /\
      ids r = ids e /\ tokens r = tokens e /\ type_ids r = repeat 1 (length (ids e)).
Proof.
  split; [reflexivity|]. intros e p add R1 R2. cbn [ts_single ts_pair ts_toks default_template].
  destruct (template_cases [PSeq false 0] [PSeq false 1] [] e (Some p) add R1) as [A _]; [intros q X; injection X as <-; exact R2|].
  destruct A as (r & H & [S0 _] & _); [repeat constructor; discriminate|]. exists r. split; [exact H|]. cbn in S0. unfold flat in S0. cbn in S0.
  injection S0 as -> -> -> _. split; [reflexivity|]. split; [reflexivity|]. induction (ids e) as [|x l IH]; cbn; [reflexivity|now rewrite IH].
Qed.
Print Assumptions C66_default_refuted.
Example C66_default_example : exists r, process (PTemplate [PSeq false 0] [PSeq false 1] [])
  (mkEnc [7] [0] [[97%N]] [(0, 1)] [0] [1] [0] [] (Some [])) (Some (mkEnc [8] [0] [[98%N]] [(0, 1)] [0] [1] [0] [] (Some []))) true = Ok (Some r) /\ ids r = [7].
Proof. eexists. split; reflexivity. Qed.
