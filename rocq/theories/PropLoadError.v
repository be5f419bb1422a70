(** C83: loading a file comes back with a tokenizer or with an error. *)
From Coq Require Import String QArith.
From Verif Require Import Base BpeModel ConfigModel ConfigSpec LoadErrorSpec LoadErrorProofs PropConfig.
Open Scope Z_scope.
Open Scope list_scope.

(** Proved: files in which every member that is read has the kind of value it should have.
    What is missing: the other files, see below. *)
Theorem C83_file_partial : forall order to32 lower base64 compile quoted c,
  fine_file base64 compile c -> reported (from_reader order to32 lower base64 compile quoted (Some c)).
Proof. exact file_reported. Qed.
Print Assumptions C83_file_partial.

(** The same for the sections on their own; the padding section may hold anything. *)
Theorem C83_sections_partial : forall order to32 lower base64 compile quoted,
  (forall fs dec, fine_model fs dec -> reported (create_model order to32 (Some fs) dec)) /\
  (forall fs, fine_normalizer base64 (JObj fs) -> reported (create_normalizer base64 quoted (Some fs))) /\
  (forall fs, fine_pre compile (JObj fs) -> reported (create_pretokenizer lower compile (Some fs))) /\
  (forall fs, fine_processor (JObj fs) -> reported (create_processor (Some fs))) /\
  (forall fs, fine_decoder (JObj fs) -> reported (create_decoder quoted (Some fs))) /\
  (forall fs, fine_truncation fs -> reported (create_truncation (Some fs))) /\
  (forall fs, exists p, create_padding (Some fs) = Ok (Some p)).
Proof.
  intros order to32 lower base64 compile quoted.
  assert (S0 : forall A (f : json -> res A) (P : json -> Prop), (forall j, P j -> reported (f j)) ->
            forall fs, P (JObj fs) -> reported (section f (Some fs))).
  { intros A f P H fs F. apply (section_reported _ f P (Some fs) H). intros fs' E. injection E as <-. exact F. }
  split; [apply model_reported|]. split; [apply S0, normalizer_reported|]. split; [apply S0, pre_reported|].
  split; [apply S0, processor_reported|]. split; [apply S0, decoder_reported|]. split.
  - intros fs F. apply (S0 _ trunc_of (object fine_truncation) trunc_reported). now exists fs.
  - intros fs. unfold create_padding, section. destruct (padding_total fs) as [p ->]. now exists p.
Qed.
Print Assumptions C83_sections_partial.

(** The loader violates the property: a component whose type is missing, or is not a text, makes
    it panic, and so does a missing member that the component needs. *)
Theorem C83_type_refuted : forall lower base64 compile quoted fs, (forall s, ~ In (key "type", JStr s) fs) ->
  create_normalizer base64 quoted (Some fs) = Panic /\ create_pretokenizer lower compile (Some fs) = Panic /\
  create_processor (Some fs) = Panic /\ create_decoder quoted (Some fs) = Panic.
Proof.
  intros lower base64 compile quoted fs U. apply untyped in U.
  unfold create_normalizer, create_pretokenizer, create_processor, create_decoder, section.
  cbn [norm_of pretok_of processor_of decoder_of]. rewrite U. cbn [bind]. auto.
Qed.
Print Assumptions C83_type_refuted.

Theorem C83_member_refuted : forall lower base64 compile quoted fs t k, typed fs t -> omits fs k ->
  (In (t, k) needed_normalizer -> create_normalizer base64 quoted (Some fs) = Panic) /\
  (In (t, k) needed_pre -> create_pretokenizer lower compile (Some fs) = Panic) /\
  (In (t, k) needed_processor -> create_processor (Some fs) = Panic) /\
  (In (t, k) needed_decoder -> create_decoder quoted (Some fs) = Panic).
Proof.
  intros lower base64 compile quoted fs t k T O.
  unfold create_normalizer, create_pretokenizer, create_processor, create_decoder, section.
  split; [intros I; now rewrite (normalizer_missing base64 quoted fs t k I T O)|].
  split; [intros I; now rewrite (pre_missing lower compile fs t k I T O)|].
  split; intros I; [now rewrite (processor_missing fs t k I T O)|now rewrite (decoder_missing quoted fs t k I T O)].
Qed.
Print Assumptions C83_member_refuted.

Theorem C83_truncation_refuted : forall fs k, In k ["max_length"; "stride"; "strategy"]%string ->
  (forall v, In (key k, v) fs -> v = JNull) -> create_truncation (Some fs) = Panic.
Proof. intros fs k I O. unfold create_truncation, section. now rewrite (trunc_missing fs k I O). Qed.
Print Assumptions C83_truncation_refuted.

(** A file that holds just null, and one without a model unless its decoder is called Unigram. *)
Theorem C83_model_refuted : forall order to32 lower base64 compile quoted,
  from_reader order to32 lower base64 compile quoted None = Panic /\
  forall c, c_model c = None -> (forall d, c_decoder c = Some d -> ~ In (key "type", JStr (key "Unigram")) d) ->
    from_reader order to32 lower base64 compile quoted (Some c) = Panic.
Proof.
  intros order to32 lower base64 compile quoted. split; [reflexivity|]. intros c M D. unfold from_reader. rewrite M.
  now rewrite (no_model order to32 (c_decoder c) D).
Qed.
Print Assumptions C83_model_refuted.

(** *** Examples *)
Lemma le_model : fine_model ex_bpe None.
Proof.
  apply FM_bpe.
  - constructor. st.
  - left. om.
  - right. exists (JStr (key "a")). split; [st|now eexists].
  - right. exists (JStr (key "@")). split; [st|now eexists].
  - left. om.
  - eexists. split; [st|]. eexists. split; [reflexivity|]. repeat (constructor; [now eexists|]). constructor.
  - eexists. split; [st|]. eexists. split; [reflexivity|]. constructor; [|constructor]. intros a b E. discriminate E.
Qed.

(** A sequence with a normalizer nobody knows: an error. *)
Definition le_norms : conf :=
  [(key "type", JStr (key "Sequence"));
   (key "normalizers", JArr [JObj [(key "type", JStr (key "NFC"))]; JObj [(key "type", JStr (key "NFX"))]])].
Lemma le_normalizer : fine_normalizer (fun _ => Err) (JObj le_norms).
Proof.
  eapply FN_sequence; [st|st|]. constructor; [|constructor; [|constructor]].
  - apply (FN_plain _ _ "NFC"%string); [cbn; tauto|st].
  - apply FN_other. exists (key "NFX"). split; [st|]. cbn. intros H. repeat (destruct H as [H|H]; [discriminate H|]). exact H.
Qed.
Definition le_file (no : option conf) : config :=
  Config None (Some [(key "strategy", JBool true)]) [] no None None None (Some ex_bpe).
Lemma le_none : forall P, fine_section P None.
Proof. intros P fs E. discriminate E. Qed.

Example C83_meets :
  fine_file (fun _ => Err) (fun _ => None) (le_file (Some le_norms)) /\
  from_reader (fun v => v) (fun q => q) (fun s => s) (fun _ => Err) (fun _ => None) (fun _ _ => []) (Some (le_file (Some le_norms))) = Err.
Proof.
  split; [|vm_compute; reflexivity]. split; [exists ex_bpe; split; [reflexivity|exact le_model]|].
  split; [intros fs E; injection E as <-; exact le_normalizer|].
  split; [apply le_none|]. split; [apply le_none|]. split; apply le_none.
Qed.

(** Without the type of the second normalizer: a panic. *)
Example C83_refuted_meets :
  (forall s, ~ In (key "type", JStr s) [(key "lowercase", JBool true)]) /\
  from_reader (fun v => v) (fun q => q) (fun s => s) (fun _ => Err) (fun _ => None) (fun _ _ => [])
    (Some (le_file (Some [(key "lowercase", JBool true)]))) = Panic.
Proof. split; [|vm_compute; reflexivity]. intros s [H|[]]. discriminate H. Qed.

Example C83_member_meets :
  typed [(key "type", JStr (key "Strip")); (key "content", JStr []); (key "start", jint 0)] "Strip" /\
  omits [(key "type", JStr (key "Strip")); (key "content", JStr []); (key "start", jint 0)] "stop" /\
  In ("Strip", "stop")%string needed_decoder.
Proof. split; [st|]. split; [om|]. cbn. tauto. Qed.
