(** C34: the metaspace pre-tokenizer and the metaspace decoder. *)
From Verif Require Import Base BaseProofs Utf8Model Utf8Proofs PatternModel NormalizedModel NormalizedSpec BpeModel PreTokenizedModel
  PreTokenizedSpec DecoderModel DecoderSpec DecoderProofs PreTokenizerModel PreTokenizerSpec MetaspaceSpec MetaspaceProofs.
Open Scope Z_scope.

(** The text that comes back, for every replacement character [r] other than NUL, every
    prepend scheme and every valid text without [r] (with a prepend scheme the first character
    is not NUL): white space comes back as spaces, and with a prepend scheme a leading white
    space is lost.  [find_chars (N.eqb r)] is the regexp made from the character [r]. *)
Theorem C34_text : forall u r scheme rs m, scalar r -> r <> 0%N -> Forall scalar rs ->
  (prepends scheme = true -> hd 1%N rs <> 0%N) -> ~ In r rs ->
  exists p', pre_tokenize u (PTMetaspace (encode_rune r) (find_chars (N.eqb r)) scheme) (pt_new (encode rs)) = Ok p' /\
    pt_orig p' = encode rs /\ Forall (fun sp => sp_toks sp = None) (pt_splits p') /\
    decode m (DMetaspace (encode_rune r) (prepends scheme)) (map sp_text (pt_splits p')) =
      Ok (encode (after_metaspace (prepends scheme) rs)).
Proof. exact metaspace_text. Qed.
Print Assumptions C34_text.

(** Which texts are restored: those whose only white space is the space character and which,
    with a prepend scheme, do not start with it. *)
Theorem C34_restored_partial : forall u r scheme rs m, scalar r -> r <> 0%N -> Forall scalar rs ->
  (prepends scheme = true -> hd 1%N rs <> 0%N) -> ~ In r rs ->
  exists p' out, pre_tokenize u (PTMetaspace (encode_rune r) (find_chars (N.eqb r)) scheme) (pt_new (encode rs)) = Ok p' /\
    decode m (DMetaspace (encode_rune r) (prepends scheme)) (map sp_text (pt_splits p')) = Ok out /\
    (out = encode rs <->
     Forall (fun c => white c = true -> c = 32%N) rs /\
     (prepends scheme = true -> forall c rest, rs = c :: rest -> white c = false)).
Proof.
  intros u r scheme rs m Sr R0 Sc NZ Nr. destruct (metaspace_text u r scheme rs m Sr R0 Sc NZ Nr) as (p' & E & _ & _ & D).
  exists p', (encode (after_metaspace (prepends scheme) rs)). split; [exact E|]. split; [exact D|]. rewrite <- after_same. split.
  - intros H. apply encode_inj; [now apply after_scalar|exact Sc|exact H].
  - now intros ->.
Qed.
Print Assumptions C34_restored_partial.

(** So the property fails for every replacement character and every scheme: a tab comes back
    as a space wherever it stands. *)
Theorem C34_refuted : forall u r scheme a b m, scalar r -> r <> 0%N -> Forall scalar (a ++ 9%N :: b) ->
  (prepends scheme = true -> hd 1%N a <> 0%N) -> ~ In r (a ++ 9%N :: b) ->
  exists p' out, pre_tokenize u (PTMetaspace (encode_rune r) (find_chars (N.eqb r)) scheme) (pt_new (encode (a ++ 9%N :: b))) = Ok p' /\
    decode m (DMetaspace (encode_rune r) (prepends scheme)) (map sp_text (pt_splits p')) = Ok out /\ out <> encode (a ++ 9%N :: b).
Proof.
  intros u r scheme a b m Sr R0 Sc NZ Nr.
  assert (NZ' : prepends scheme = true -> hd 1%N (a ++ 9%N :: b) <> 0%N) by (intros H; destruct a; cbn in *; [discriminate|now apply NZ]).
  destruct (C34_restored_partial u r scheme _ m Sr R0 Sc NZ' Nr) as (p' & out & E & D & I). exists p', out. split; [exact E|]. split; [exact D|].
  intros H. apply I in H. destruct H as [H _]. apply Forall_app in H. destruct H as [_ H]. inversion H as [|? ? Hc _]. specialize (Hc eq_refl). discriminate.
Qed.
Print Assumptions C34_refuted.

(** And with a prepend scheme a leading space is lost. *)
Theorem C34_leading_refuted : forall u r scheme rest m, scalar r -> r <> 0%N -> r <> 32%N -> scheme <> Never -> Forall scalar rest -> ~ In r rest ->
  exists p', pre_tokenize u (PTMetaspace (encode_rune r) (find_chars (N.eqb r)) scheme) (pt_new (encode (32%N :: rest))) = Ok p' /\
    decode m (DMetaspace (encode_rune r) (prepends scheme)) (map sp_text (pt_splits p')) = Ok (encode (blanked rest)).
Proof.
  intros u r scheme rest m Sr R0 R1 Hs Sc Nr.
  assert (S32 : scalar 32%N) by (unfold scalar; lia).
  destruct (metaspace_text u r scheme (32%N :: rest) m Sr R0) as (p' & E & _ & _ & D).
  - now constructor.
  - discriminate.
  - intros [H|H]; [now apply R1|now apply Nr].
  - exists p'. split; [exact E|]. rewrite D. destruct scheme; [congruence|reflexivity|reflexivity].
Qed.
Print Assumptions C34_leading_refuted.

(** "Hey my  é" with the usual replacement character and a prepend scheme. *)
Definition u34 : unicode := Uni (fun _ => false) (fun _ => false) (fun _ => false) (fun _ => []).
Example C34_ex :
  let rs := [72; 101; 121; 32; 109; 121; 32; 32; 233]%N in
  let r := 9601%N in
  scalar r /\ Forall scalar rs /\ hd 1%N rs <> 0%N /\ ~ In r rs /\
  Forall (fun c => white c = true -> c = 32%N) rs /\ white 72 = false /\
  option_map (fun p => map sp_text (pt_splits p))
    (match pre_tokenize u34 (PTMetaspace (encode_rune r) (find_chars (N.eqb r)) Always) (pt_new (encode rs)) with Ok p => Some p | _ => None end) =
  Some (map encode [[r; 72; 101; 121]; [r; 109; 121]; [r]; [r; 233]])%N /\
  decode ByNew (DMetaspace (encode_rune r) true) (map encode [[r; 72; 101; 121]; [r; 109; 121]; [r]; [r; 233]])%N = Ok (encode rs).
Proof.
  cbn zeta. split; [unfold scalar; lia|]. split; [repeat constructor; unfold scalar; lia|]. split; [discriminate|]. split; [cbn; intuition discriminate|].
  split; [repeat constructor; vm_compute; congruence|]. split; [reflexivity|]. split; vm_compute; reflexivity.
Qed.

(** " a\tb": the leading space is lost and the tab becomes a space. *)
Example C34_ex_lost : after_metaspace true [32; 97; 9; 98]%N = [97; 32; 98]%N /\ after_metaspace false [32; 97; 9; 98]%N = [32; 97; 32; 98]%N.
Proof. split; reflexivity. Qed.
