(** Loading comes back, or crashes. *)
From Coq Require Import String QArith.
From Verif Require Import Base BaseProofs Utf8Model PatternModel EncodingModel NormalizedModel.
From Verif Require Import BpeModel BpeSaveModel WordPieceModel UnigramModel AddedVocabModel.
From Verif Require Import DecoderModel PreTokenizerModel ProcessorModel SpmModel SpmSpec SpmProofs.
From Verif Require Import ConfigModel ConfigSpec ConfigProofs ConfigLoadProofs WordPieceProofs LoadErrorSpec.
Open Scope Z_scope.
Open Scope list_scope.

Lemma reported_Ok : forall A (x : A), reported (Ok x).
Proof. intros A x. right. now exists x. Qed.
Lemma reported_Err : forall A, reported (@Err A).
Proof. intros A. now left. Qed.
Global Hint Resolve reported_Ok reported_Err : core.

Lemma reported_bind : forall A B (x : res A) (f : A -> res B),
  reported x -> (forall a, x = Ok a -> reported (f a)) -> reported (bind x f).
Proof. intros A B x f [->|[a ->]] H; cbn [bind]; auto. Qed.

Lemma reported_mapR : forall A B (f : A -> res B) l, Forall (fun x => reported (f x)) l -> reported (mapR f l).
Proof.
  intros A B f l H. induction H as [|x l H F IH]; cbn [mapR]; [auto|].
  apply reported_bind; [exact H|]. intros y _. apply reported_bind; [exact IH|]. auto.
Qed.

Lemma reported_if : forall A (b : bool) (x y : res A), reported x -> reported y -> reported (if b then x else y).
Proof. intros A b x y X Y. now destruct b. Qed.

(** ** Members *)
Lemma must_str : forall fs k, must fs k text -> exists s, fget k fs = JStr s.
Proof. intros fs k [v [S0 [s ->]]]. exists s. now apply fget_states. Qed.
Lemma must_bool : forall fs k, must fs k flag -> exists s, fget k fs = JBool s.
Proof. intros fs k [v [S0 [s ->]]]. exists s. now apply fget_states. Qed.
Lemma must_num : forall fs k, must fs k number -> exists s, fget k fs = JNum s.
Proof. intros fs k [v [S0 [s ->]]]. exists s. now apply fget_states. Qed.

Lemma must_as_str : forall fs k, must fs k text -> exists s, as_str (fget k fs) = Ok s.
Proof. intros fs k H. apply must_str in H as [s ->]. now exists s. Qed.
Lemma must_as_bool : forall fs k, must fs k flag -> exists s, as_bool (fget k fs) = Ok s.
Proof. intros fs k H. apply must_bool in H as [s ->]. now exists s. Qed.
Lemma must_as_int : forall fs k, must fs k number -> exists s, as_int (fget k fs) = Ok s.
Proof. intros fs k H. apply must_num in H as [s ->]. now exists (to_int s). Qed.

Lemma may_opt : forall A (as_ : json -> res A) (P : json -> Prop) fs k,
  (forall v, P v -> exists a, as_ v = Ok a) -> may fs k P -> exists o, opt as_ k fs = Ok o.
Proof.
  intros A as_ P fs k C [O|[v [S0 H]]]; unfold opt.
  - rewrite (fget_omits _ _ O). now exists None.
  - rewrite (fget_states _ _ _ S0). destruct (C v H) as [a E]. destruct v; rewrite ?E; cbn [bind]; eexists; reflexivity.
Qed.
Lemma opt_dflt : forall A (as_ : json -> res A) (d : A) fs k, (exists o, opt as_ k fs = Ok o) -> exists a, dflt as_ d k fs = Ok a.
Proof. intros A as_ d fs k [o E]. unfold dflt. rewrite E. cbn [bind]. now eexists. Qed.

Lemma text_as : forall v, text v -> exists a, as_str v = Ok a.
Proof. intros v [s ->]. now exists s. Qed.
Lemma flag_as : forall v, flag v -> exists a, as_bool v = Ok a.
Proof. intros v [s ->]. now exists s. Qed.
Lemma number_as : forall v, number v -> exists a, as_num v = Ok a.
Proof. intros v [s ->]. now exists s. Qed.
Lemma number_as_int : forall v, number v -> exists a, as_int v = Ok a.
Proof. intros v [s ->]. now exists (to_int s). Qed.

Ltac reading :=
  repeat match goal with
  | |- reported (Ok _) => apply reported_Ok
  | |- reported Err => apply reported_Err
  | H : may ?fs ?k text |- context [opt as_str ?k ?fs] =>
      let o := fresh "o" in let E := fresh "E" in
      destruct (may_opt _ as_str text fs k text_as H) as [o E]; rewrite E; cbn [bind]; clear E
  | H : may ?fs ?k number |- context [opt as_num ?k ?fs] =>
      let o := fresh "o" in let E := fresh "E" in
      destruct (may_opt _ as_num number fs k number_as H) as [o E]; rewrite E; cbn [bind]; clear E
  | H : may ?fs ?k number |- context [opt as_int ?k ?fs] =>
      let o := fresh "o" in let E := fresh "E" in
      destruct (may_opt _ as_int number fs k number_as_int H) as [o E]; rewrite E; cbn [bind]; clear E
  | H : may ?fs ?k text |- context [dflt as_str ?d ?k ?fs] =>
      let o := fresh "o" in let E := fresh "E" in
      destruct (opt_dflt _ as_str d fs k (may_opt _ as_str text fs k text_as H)) as [o E]; rewrite E; cbn [bind]; clear E
  | H : may ?fs ?k flag |- context [dflt as_bool ?d ?k ?fs] =>
      let o := fresh "o" in let E := fresh "E" in
      destruct (opt_dflt _ as_bool d fs k (may_opt _ as_bool flag fs k flag_as H)) as [o E]; rewrite E; cbn [bind]; clear E
  | H : may ?fs ?k number |- context [dflt as_int ?d ?k ?fs] =>
      let o := fresh "o" in let E := fresh "E" in
      destruct (opt_dflt _ as_int d fs k (may_opt _ as_int number fs k number_as_int H)) as [o E]; rewrite E; cbn [bind]; clear E
  | H : must ?fs ?k text |- context [as_str (fget ?k ?fs)] =>
      let o := fresh "o" in let E := fresh "E" in
      destruct (must_as_str fs k H) as [o E]; rewrite E; cbn [bind]; clear E
  | H : must ?fs ?k flag |- context [as_bool (fget ?k ?fs)] =>
      let o := fresh "o" in let E := fresh "E" in
      destruct (must_as_bool fs k H) as [o E]; rewrite E; cbn [bind]; clear E
  | H : must ?fs ?k number |- context [as_int (fget ?k ?fs)] =>
      let o := fresh "o" in let E := fresh "E" in
      destruct (must_as_int fs k H) as [o E]; rewrite E; cbn [bind]; clear E
  end.

(** ** Models *)
Lemma cast_vocab_reported : forall fs, Forall (fun p : str * json => number (snd p)) fs -> reported (cast_vocab fs).
Proof.
  intros fs H. unfold cast_vocab. apply reported_bind; [|auto]. apply reported_mapR.
  eapply Forall_impl; [|exact H]. cbn beta. intros p N0. destruct (number_as_int _ N0) as [z ->]. cbn [bind]. auto.
Qed.
Lemma vocab_read : forall A fs (f : vocab -> res A), must fs "vocab" vocabulary -> (forall v, reported (f v)) ->
  reported (do vfs <- as_obj (fget "vocab" fs); do v <- cast_vocab vfs; f v).
Proof.
  intros A fs f [v [S0 [vfs [-> F]]]] R. rewrite (fget_states _ _ _ S0). cbn [as_obj bind].
  apply reported_bind; [now apply cast_vocab_reported|]. auto.
Qed.
Lemma cast_merge_reported : forall l, Forall merge_fine l -> reported (cast_merge l).
Proof.
  intros l H. unfold cast_merge. apply reported_mapR. eapply Forall_impl; [|exact H]. cbn beta.
  intros j M. destruct j as [| | | |l0|]; auto. destruct l0 as [|a [|b [|c l0]]]; auto.
  destruct (M a b eq_refl) as [[x ->] [y ->]]. cbn [as_str bind]. auto.
Qed.
Lemma merge_line_reported : forall v st line, reported (merge_line v st line).
Proof.
  intros v [n m] line. unfold merge_line. destruct (split_on SP line) as [|x [|y [|z l]]]; auto.
  destruct (vget x v), (vget y v); auto. destruct (vget (x ++ y) v); auto.
Qed.
Lemma create_merges_reported : forall v lines, reported (create_merges v lines).
Proof.
  intros v lines. unfold create_merges. apply reported_bind; [|auto].
  generalize (0%Z, @nil ((Z * Z) * (Z * Z))). induction lines as [|x l IH]; intros st; cbn [foldR]; [auto|].
  apply reported_bind; [apply merge_line_reported|]. auto.
Qed.
Lemma entry_reported : forall j, entry_fine j -> reported (unigram_entry j).
Proof.
  intros j [l [-> H]]. unfold unigram_entry. cbn [as_arr bind]. destruct l as [|a [|b [|c l]]]; auto.
  destruct (H a b eq_refl) as [[s ->] [q ->]]. cbn. auto.
Qed.
Lemma ug_build_reported : forall S (voc : list (str * S)) unk b f, reported (ug_build voc unk b f).
Proof. intros S voc unk b f. unfold ug_build. destruct unk; auto. now apply reported_if. Qed.

Lemma model_reported : forall order to32 fs dec, fine_model fs dec -> reported (create_model order to32 (Some fs) dec).
Proof.
  intros order to32 fs dec F. unfold create_model. destruct F as [M|M|M|M|[s [S0 N0]]].
  1-4: rewrite (model_type_ok _ _ _ M); cbn [bind]; names.
  - unfold create_bpe. reading. apply vocab_read; [assumption|]. intros v.
    match goal with H : must fs "merges" _ |- _ => destruct H as [w [Sw [l [-> L]]]] end.
    rewrite (fget_states _ _ _ Sw). cbn [as_arr bind].
    apply reported_bind; [now apply cast_merge_reported|]. intros lines _.
    apply reported_bind; [apply create_merges_reported|]. intros t _.
    match goal with |- context [if ?b then _ else _] => destruct b end; auto.
  - unfold create_wordpiece. reading. apply vocab_read; auto.
  - unfold create_wordlevel. reading. apply vocab_read; auto.
  - unfold create_unigram. reading.
    match goal with H : may fs "vocab" _ |- _ => destruct H as [O|[w [Sw [l [-> L]]]]] end.
    + rewrite (fget_omits _ _ O). auto.
    + rewrite (fget_states _ _ _ Sw). cbn [as_arr bind].
      apply reported_bind.
      { apply reported_mapR. eapply Forall_impl; [|exact L]. exact entry_reported. }
      intros voc _. apply reported_bind; [apply ug_build_reported|]. auto.
  - unfold model_type. rewrite (opt_states _ as_str fs "type" (JStr s) ltac:(discriminate) S0). cbn [as_str bind].
    cbn [map In] in N0.
    rewrite !(proj2 (str_eqb_neq _ _)) by (intros E; apply N0; rewrite E; tauto). auto.
Qed.

(** ** Components *)
Ltac unknown S0 N0 :=
  rewrite (fget_states _ _ _ S0); cbn [as_str bind]; cbn [map In] in N0;
  rewrite !(proj2 (str_eqb_neq _ _)) by (intros E; apply N0; rewrite E; tauto); cbn [orb]; auto.
Ltac known T := unfold typed in T; rewrite (fget_states _ _ _ T); cbn [as_str bind]; names.

Lemma replace_reported : forall quoted fs A (f : pattern -> str -> res A), replace_fine fs ->
  (forall p s, reported (f p s)) ->
  reported (do p <- replace_pattern quoted fs; do content <- as_str (fget "content" fs); f p content).
Proof.
  intros quoted fs A f [[v [S0 [p [-> P]]]] C] R. unfold replace_pattern. rewrite (fget_states _ _ _ S0). cbn [as_obj bind].
  destruct (must_as_str _ _ C) as [c Ec]. rewrite Ec. clear Ec.
  destruct P as [M|[O [O2|M]]].
  - apply must_str in M as [s ->]. cbn [as_str bind]. auto.
  - rewrite (fget_omits _ _ O), (fget_omits _ _ O2). cbn [bind]. auto.
  - rewrite (fget_omits _ _ O). apply must_str in M as [s ->]. cbn [as_str bind]. destruct (fget "Regex" fs); cbn [bind]; auto.
Qed.

Lemma byte_level_reported : forall fs, may fs "add_prefix_space" flag -> may fs "trim_offsets" flag ->
  exists s, byte_level_of fs = Ok s.
Proof. intros fs A B. unfold byte_level_of.
  destruct (opt_dflt _ as_bool false fs _ (may_opt _ as_bool flag fs _ flag_as A)) as [o ->].
  destruct (opt_dflt _ as_bool false fs _ (may_opt _ as_bool flag fs _ flag_as B)) as [o2 ->]. cbn [bind]. now eexists.
Qed.

Lemma normalizer_reported : forall base64 quoted j, fine_normalizer base64 j -> reported (norm_of base64 quoted j).
Proof.
  intros base64 quoted. fix IH 2. intros j H.
  destruct H as [fs T|fs t I T L R|fs t I T|fs T C|fs T R|fs T P|fs T O|fs l T A F|fs [s [S0 N0]]]; cbn [norm_of].
  - known T. reading.
  - destruct I as [<-|[<-|[]]]; known T; reading.
  - repeat (destruct I as [<-|I]; [known T; auto|]). destruct I.
  - known T. unfold create_precompiled, opt. destruct C as [O|[v [Sv [s [-> B]]]]].
    + rewrite (fget_omits _ _ O). cbn [bind]. auto.
    + rewrite (fget_states _ _ _ Sv). cbn [as_str bind]. destruct B as [->|[units [txt [-> [U1 U2]]]]]; cbn [bind]; auto.
      rewrite (parse_blob _ _ U1 U2). cbn [bind]. auto.
  - known T. apply replace_reported; auto.
  - known T. reading.
  - known T. rewrite seek_fget, (fget_omits _ _ O). cbn [bind]. auto.
  - known T. rewrite seek_fget, (fget_states _ _ _ A). apply reported_bind; [|auto]. apply reported_mapR.
    clear A. induction F as [|x l0 X F0 IHF]; constructor; [apply IH; exact X|exact IHF].
  - unknown S0 N0.
Qed.

Lemma behavior_reported : forall s, reported (behavior_of s).
Proof. intros s. unfold behavior_of. repeat (apply reported_if; [auto|]). auto. Qed.

Lemma aget_absent : forall k (fs : conf), ~ In k (map fst fs) -> aget str_eqb k fs = None.
Proof.
  intros k fs. induction fs as [|[k' v] fs IH]; intros H; [reflexivity|]. cbn [aget map fst In] in *.
  rewrite (proj2 (str_eqb_neq _ _)) by (intros E; apply H; left; now rewrite E). apply IH. tauto.
Qed.

Lemma compiles_ok : forall compile v, compiles compile v ->
  exists p, (do s <- as_str v; regexp_pattern compile s) = Ok p.
Proof. intros compile v [s [f [-> E]]]. cbn [as_str bind]. unfold regexp_pattern. rewrite E. now eexists. Qed.

Lemma pre_reported : forall lower compile j, fine_pre compile j -> reported (pretok_of lower compile j).
Proof.
  intros lower compile. fix IH 2. intros j H.
  destruct H as [fs t I T|fs T P O|fs s T D NE|fs T R P A|fs T B|fs T D|fs p T P B V C|fs l T A F|fs [s [S0 N0]]];
    cbn [pretok_of].
  - repeat (destruct I as [<-|I]; [known T; auto|]). destruct I.
  - known T. destruct (byte_level_reported _ P O) as [s ->]. cbn [bind]. auto.
  - known T. rewrite (fget_states _ _ _ D). cbn [as_str bind].
    pose proof (runes_nonempty s NE) as L. destruct (runes s); [discriminate L|auto].
  - known T. unfold create_metaspace. cbv zeta.
    destruct (opt_dflt _ as_str [] fs _ (may_opt _ as_str text fs _ text_as R)) as [rep ->]. cbn [bind].
    destruct (may_opt _ as_str text fs _ text_as P) as [sch ->]. cbn [bind].
    destruct sch; [|reading]. repeat (apply reported_if; [auto|]). auto.
  - known T. reading. apply reported_bind; [apply behavior_reported|]. auto.
  - known T. reading.
  - known T. unfold create_split. rewrite (fget_states _ _ _ P). cbn [as_obj bind]. reading.
    destruct C as [[v [Sv Cv]]|[Dp [NR C]]].
    + rewrite (aget_states _ _ _ Sv). destruct (compiles_ok _ _ Cv) as [q ->]. cbn [bind].
      apply reported_bind; [apply behavior_reported|]. auto.
    + rewrite (aget_absent _ _ NR). destruct C as [[v [Sv Cv]]|NS].
      * rewrite (aget_states _ _ _ Sv). destruct (compiles_ok _ _ Cv) as [q ->]. cbn [bind].
        apply reported_bind; [apply behavior_reported|]. auto.
      * rewrite (aget_absent _ _ NS). cbn [bind]. auto.
  - known T. rewrite seek_fget, (fget_states _ _ _ A). apply reported_bind; [|auto]. apply reported_mapR.
    clear A. induction F as [|x l0 X F0 IHF]; constructor; [apply IH; exact X|exact IHF].
  - unknown S0 N0.
Qed.

Lemma decoder_reported : forall quoted j, fine_decoder j -> reported (decoder_of quoted j).
Proof.
  intros quoted. fix IH 2. intros j H.
  destruct H as [fs T S1|fs T P O|fs T P C|fs T R P|fs T P D C|fs T R|fs t I T|fs T C A B|fs l T A F|fs [s [S0 N0]]];
    cbn [decoder_of].
  - known T. reading.
  - known T. destruct (byte_level_reported _ P O) as [s ->]. cbn [bind]. auto.
  - known T. reading.
  - known T. reading.
  - known T. reading.
  - known T. apply replace_reported; auto.
  - repeat (destruct I as [<-|I]; [known T; auto|]). destruct I.
  - known T. reading.
  - known T. rewrite seek_fget, (fget_states _ _ _ A). apply reported_bind; [|auto]. apply reported_mapR.
    clear A. induction F as [|x l0 X F0 IHF]; constructor; [apply IH; exact X|exact IHF].
  - unknown S0 N0.
Qed.

(** ** Post-processors *)
Lemma post_token_reported : forall k fs, must fs k token_fine -> exists t, post_token_of k fs = Ok t.
Proof.
  intros k fs [v [S0 [s [q [rest ->]]]]]. unfold post_token_of. rewrite (fget_states _ _ _ S0).
  cbn [as_arr bind]. change (zindex (JStr s :: JNum q :: rest) 0) with (Ok (JStr s)).
  assert (Z1 : zindex (JStr s :: JNum q :: rest) 1 = Ok (JNum q)).
  { reflexivity. }
  cbn [bind as_str]. rewrite Z1. cbn. now eexists.
Qed.

Lemma item_fine_read : forall A v (f : str -> Z -> A), item_fine v ->
  exists x, (do item <- as_obj v; do id <- as_str (fget "id" item); do ty <- as_int (fget "type_id" item); Ok (f id ty)) = Ok x.
Proof.
  intros A v f [fs [-> [I T]]]. cbn [as_obj bind]. destruct (must_as_str _ _ I) as [s ->].
  destruct (must_as_int _ _ T) as [z ->]. cbn [bind]. now eexists.
Qed.

Lemma piece_reported : forall j, piece_fine j -> exists ps, pieces_of j = Ok ps.
Proof.
  intros j [fs [-> [M1 M2]]]. unfold pieces_of. cbn [as_obj bind].
  match goal with |- context [opt ?a "Sequence" fs] => destruct (may_opt _ a item_fine fs "Sequence"
    (fun v H => item_fine_read _ v (fun id ty => PSeq (negb (str_eqb id (key "A"))) ty) H) M1) as [o ->] end.
  match goal with |- context [opt ?a "SpecialToken" fs] => destruct (may_opt _ a item_fine fs "SpecialToken"
    (fun v H => item_fine_read _ v (fun id ty => PSpecial id ty) H) M2) as [o2 ->] end.
  cbn [bind]. now eexists.
Qed.

Lemma mapR_total : forall A B (f : A -> res B) l, Forall (fun x => exists y, f x = Ok y) l -> exists ys, mapR f l = Ok ys.
Proof.
  intros A B f l H. induction H as [|x l [y E] F [ys IH]]; [now exists []|]. cbn [mapR]. rewrite E, IH. cbn [bind]. now eexists.
Qed.

Lemma template_reported : forall k fs, may fs k (items piece_fine) -> exists ps, template_of k fs = Ok ps.
Proof.
  intros k fs M. unfold template_of.
  assert (O : exists o, opt as_arr k fs = Ok o /\ match o with Some l => Forall piece_fine l | None => True end).
  { destruct M as [O|[v [S0 [l [-> F]]]]]; unfold opt.
    - rewrite (fget_omits _ _ O). now exists None.
    - rewrite (fget_states _ _ _ S0). cbn [as_arr bind]. now exists (Some l). }
  destruct O as [o [-> F]]. cbn [bind]. destruct o as [l|]; [|now eexists].
  destruct (mapR_total _ _ pieces_of l) as [ys ->]; [|cbn [bind]; now eexists].
  eapply Forall_impl; [|exact F]. exact piece_reported.
Qed.

Lemma template_plain : forall k fs, may fs k (items sequence_only) ->
  exists ps, template_of k fs = Ok ps /\ existsb is_special_piece ps = false.
Proof.
  intros k fs M. unfold template_of.
  assert (O : exists o, opt as_arr k fs = Ok o /\ match o with Some l => Forall sequence_only l | None => True end).
  { destruct M as [O|[v [S0 [l [-> F]]]]]; unfold opt.
    - rewrite (fget_omits _ _ O). now exists None.
    - rewrite (fget_states _ _ _ S0). cbn [as_arr bind]. now exists (Some l). }
  destruct O as [o [-> F]]. cbn [bind]. destruct o as [l|]; [|now eexists].
  assert (G : exists ys, mapR pieces_of l = Ok ys /\ existsb is_special_piece (concat ys) = false).
  { induction F as [|x l [fs0 [-> [M1 M2]]] F [ys [IH E]]]; [now exists []|]. cbn [mapR].
    unfold pieces_of at 1. cbn [as_obj bind].
    destruct M1 as [O|[v [S0 [it [-> [I T]]]]]].
    - rewrite (opt_omits _ _ _ _ O). rewrite (opt_omits _ _ _ _ M2). cbn [bind]. rewrite IH. cbn [bind]. now eexists.
    - rewrite (opt_states _ _ fs0 "Sequence" (JObj it) ltac:(discriminate) S0). cbn [as_obj bind].
      destruct (must_as_str _ _ I) as [s ->]. destruct (must_as_int _ _ T) as [z ->]. cbn [bind].
      rewrite (opt_omits _ _ _ _ M2). cbn [bind]. rewrite IH. cbn [bind]. eexists. split; [reflexivity|]. cbn. exact E. }
  destruct G as [ys [-> E]]. cbn [bind]. now eexists.
Qed.

Lemma special_reported : forall j, special_fine j -> exists t, special_of j = Ok t.
Proof.
  intros j [d [-> [I [[v [Sv [l [-> L]]]] [w [Sw [t [-> T]]]]]]]]. unfold special_of. cbn [as_obj bind].
  destruct (must_as_str _ _ I) as [s ->]. rewrite (fget_states _ _ _ Sv), (fget_states _ _ _ Sw). cbn [as_arr bind].
  destruct (mapR_total _ _ as_int l) as [is ->]; [eapply Forall_impl; [|exact L]; exact number_as_int|].
  destruct (mapR_total _ _ as_str t) as [ts ->]; [eapply Forall_impl; [|exact T]; exact text_as|].
  cbn [bind]. now eexists.
Qed.

Lemma processor_reported : forall j, fine_processor j -> reported (processor_of j).
Proof.
  fix IH 2. intros j H.
  destruct H as [fs T S1 C O P|fs T S1 C|fs T P O|fs T S1 D M|fs T S1 D M|fs l T A F|fs [s [S0 N0]]]; cbn [processor_of].
  - known T. destruct (post_token_reported _ _ S1) as [s ->]. destruct (post_token_reported _ _ C) as [c ->]. cbn [bind]. reading.
  - known T. destruct (post_token_reported _ _ S1) as [s ->]. destruct (post_token_reported _ _ C) as [c ->]. cbn [bind]. auto.
  - known T. destruct (byte_level_reported _ P O) as [s ->]. cbn [bind]. auto.
  - known T. unfold create_template. destruct (template_reported _ _ S1) as [x ->]. destruct (template_reported _ _ D) as [y ->].
    cbn [bind]. unfold specials_of. destruct M as [v [Sv [m [-> F]]]].
    rewrite (opt_states _ as_obj fs "special_tokens" (JObj m) ltac:(discriminate) Sv). cbn [as_obj bind].
    destruct (mapR_total _ _ (fun p : str * json => special_of (snd p)) m) as [l ->].
    { eapply Forall_impl; [|exact F]. cbn beta. intros p. apply special_reported. }
    cbn [bind]. auto.
  - known T. unfold create_template. destruct (template_plain _ _ S1) as [x [-> X]]. destruct (template_plain _ _ D) as [y [-> Y]].
    cbn [bind]. unfold specials_of. rewrite (opt_omits _ _ _ _ M). cbn [bind]. rewrite existsb_app, X, Y. cbn [orb]. auto.
  - known T. rewrite seek_fget, (fget_states _ _ _ A). apply reported_bind; [|auto]. apply reported_mapR.
    clear A. induction F as [|x l0 X F0 IHF]; constructor; [apply IH; exact X|exact IHF].
  - unknown S0 N0.
Qed.

(** ** Truncation, padding, files *)
Lemma trunc_reported : forall j, object fine_truncation j -> reported (trunc_of j).
Proof. intros j [fs [-> [M [S0 T]]]]. unfold trunc_of. cbn [as_obj bind]. reading. Qed.

Lemma padding_total : forall fs, exists p, pad_of (JObj fs) = Ok p.
Proof. intros fs. unfold pad_of. cbn [as_obj bind]. destruct (strategy_of fs) as [name size]. now eexists. Qed.

Lemma section_reported : forall A (f : json -> res A) (P : json -> Prop) c,
  (forall j, P j -> reported (f j)) -> fine_section P c -> reported (section f c).
Proof.
  intros A f P [fs|] H F; cbn [section]; [|auto]. apply reported_bind; [apply H, F; reflexivity|]. auto.
Qed.

Lemma file_reported : forall order to32 lower base64 compile quoted c, fine_file base64 compile c ->
  reported (from_reader order to32 lower base64 compile quoted (Some c)).
Proof.
  intros order to32 lower base64 compile quoted c [[fs [M FM]] [N0 [P [R [D T]]]]]. unfold from_reader. rewrite M.
  apply reported_bind; [now apply model_reported|]. intros m _.
  apply reported_bind; [eapply section_reported; [|exact N0]; apply normalizer_reported|]. intros n _.
  apply reported_bind; [eapply section_reported; [|exact P]; apply pre_reported|]. intros p _.
  apply reported_bind; [eapply section_reported; [|exact R]; apply processor_reported|]. intros r _.
  apply reported_bind; [eapply section_reported; [|exact D]; apply decoder_reported|]. intros d _.
  apply reported_bind; [eapply section_reported; [|exact T]; apply trunc_reported|]. intros t _.
  apply reported_bind; [|auto]. unfold create_padding, section. destruct (c_padding c) as [f|]; [|auto].
  destruct (padding_total f) as [q ->]. cbn [bind]. auto.
Qed.

(** ** Crashes *)
Lemma untyped : forall fs, (forall s, ~ In (key "type", JStr s) fs) -> as_str (fget "type" fs) = Panic.
Proof.
  intros fs H. unfold fget. destruct (aget str_eqb (key "type") fs) as [v|] eqn:E; [|reflexivity].
  apply (ag_in str_eqb str_eqb_eq) in E. destruct v; try reflexivity. now destruct (H s).
Qed.

Lemma no_model : forall order to32 dec,
  (forall d, dec = Some d -> ~ In (key "type", JStr (key "Unigram")) d) ->
  create_model order to32 None dec = Panic.
Proof.
  intros order to32 dec H. unfold create_model, model_type. cbn [opt fget aget bind].
  assert (X : forall d, ~ In (key "type", JStr (key "Unigram")) d -> 
     (do t <- (do dt <- opt as_str "type" d;
        match dt with
        | Some dt => if str_eqb dt (key "WordPiece") || str_eqb dt (key "WordLevel") || str_eqb dt (key "Unigram") then Ok dt else Ok (key "BPE")
        | None => Ok (key "BPE") end);
      if str_eqb t (key "BPE") then create_bpe order to32 []
      else if str_eqb t (key "WordPiece") then create_wordpiece order []
      else if str_eqb t (key "WordLevel") then create_wordlevel order []
      else if str_eqb t (key "Unigram") then create_unigram [] else Err) = Panic).
  { intros d K. unfold opt, fget. destruct (aget str_eqb (key "type") d) as [v|] eqn:E; [|reflexivity].
    apply (ag_in str_eqb str_eqb_eq) in E. destruct v as [| | |s| |]; try reflexivity. cbn [as_str bind].
    destruct (str_eqb s (key "WordPiece")) eqn:E1; [apply str_eqb_eq in E1 as ->; reflexivity|].
    destruct (str_eqb s (key "WordLevel")) eqn:E2; [apply str_eqb_eq in E2 as ->; reflexivity|].
    destruct (str_eqb s (key "Unigram")) eqn:E3; [apply str_eqb_eq in E3 as ->; now destruct K|]. reflexivity. }
  destruct dec as [d|]; [exact (X d (H d eq_refl))|exact (X [] (fun f => f))].
Qed.

Lemma trunc_missing : forall fs k, In k ["max_length"; "stride"; "strategy"]%string ->
  (forall v, In (key k, v) fs -> v = JNull) -> trunc_of (JObj fs) = Panic.
Proof.
  intros fs k I O.
  assert (G : fget k fs = JNull).
  { unfold fget. destruct (aget str_eqb (key k) fs) as [v|] eqn:E; [|reflexivity].
    apply (ag_in str_eqb str_eqb_eq) in E. auto. }
  unfold trunc_of. cbn [as_obj bind].
  destruct I as [<-|[<-|[<-|[]]]]; rewrite G; [reflexivity| |].
  - unfold as_int at 1. destruct (fget "max_length" fs); reflexivity.
  - unfold as_int. destruct (fget "max_length" fs); try reflexivity. cbn [as_num bind]. destruct (fget "stride" fs); reflexivity.
Qed.

Ltac crash T O :=
  known T; unfold create_split, replace_pattern, post_token_of; rewrite ?(seek_fget), ?(fget_omits _ _ O);
  repeat (match goal with
  | |- context [as_str (fget ?k ?fs)] => destruct (fget k fs)
  | |- context [as_bool (fget ?k ?fs)] => destruct (fget k fs)
  | |- context [as_int (fget ?k ?fs)] => destruct (fget k fs)
  | |- context [as_arr (fget ?k ?fs)] => destruct (fget k fs)
  | |- context [as_obj (fget ?k ?fs)] => destruct (fget k fs)
  end; cbn [as_str as_bool as_int as_num as_arr as_obj bind]; try reflexivity).

Lemma pre_missing : forall lower compile fs t k, In (t, k) needed_pre -> typed fs t -> omits fs k ->
  pretok_of lower compile (JObj fs) = Panic.
Proof.
  intros lower compile fs t k I T O. cbn [pretok_of].
  repeat (destruct I as [I|I]; [injection I as <- <-; crash T O; reflexivity|]). destruct I.
Qed.

Lemma token_either : forall k fs, post_token_of k fs = Panic \/ exists t, post_token_of k fs = Ok t.
Proof.
  intros k fs. unfold post_token_of. destruct (fget k fs) as [| | | |l|]; auto. cbn [as_arr bind].
  destruct l as [|a [|b l]]; [now left|destruct a; now left|].
  change (zindex (a :: b :: l) 0) with (Ok a). change (zindex (a :: b :: l) 1) with (Ok b). cbn [bind].
  destruct a; auto. destruct b; auto. cbn. right. now eexists.
Qed.
Lemma replace_either : forall quoted fs, replace_pattern quoted fs = Panic \/ exists p, replace_pattern quoted fs = Ok p.
Proof.
  intros quoted fs. unfold replace_pattern. destruct (fget "pattern" fs) as [| | | | |p]; auto. cbn [as_obj bind].
  destruct (fget "String" p); auto; [|right; now eexists].
  destruct (fget "Regex" fs); [right; now eexists|..]; (destruct (fget "Regex" p); auto; right; now eexists).
Qed.
Lemma token_omitted : forall k fs, omits fs k -> post_token_of k fs = Panic.
Proof. intros k fs O. unfold post_token_of. now rewrite (fget_omits _ _ O). Qed.

Ltac crash_token T O :=
  known T; rewrite ?(token_omitted _ _ O), ?(seek_fget), ?(fget_omits _ _ O); cbn [bind]; try reflexivity;
  repeat (match goal with
  | |- context [post_token_of ?k ?fs] => let E := fresh in destruct (token_either k fs) as [E|[? E]]; rewrite E; clear E
  | |- context [replace_pattern ?q ?fs] => let E := fresh in destruct (replace_either q fs) as [E|[? E]]; rewrite E; clear E
  | |- context [as_bool (fget ?k ?fs)] => destruct (fget k fs)
  end; cbn [as_bool as_str bind]; try reflexivity).

Lemma processor_missing : forall fs t k, In (t, k) needed_processor -> typed fs t -> omits fs k ->
  processor_of (JObj fs) = Panic.
Proof.
  intros fs t k I T O. cbn [processor_of].
  repeat (destruct I as [I|I]; [injection I as <- <-; crash_token T O; reflexivity|]). destruct I.
Qed.
Lemma decoder_missing : forall quoted fs t k, In (t, k) needed_decoder -> typed fs t -> omits fs k ->
  decoder_of quoted (JObj fs) = Panic.
Proof.
  intros quoted fs t k I T O. cbn [decoder_of].
  repeat (destruct I as [I|I]; [injection I as <- <-; (crash T O; reflexivity) || (crash_token T O; reflexivity)|]). destruct I.
Qed.
Lemma normalizer_missing : forall base64 quoted fs t k, In (t, k) needed_normalizer -> typed fs t -> omits fs k ->
  norm_of base64 quoted (JObj fs) = Panic.
Proof.
  intros base64 quoted fs t k I T O. cbn [norm_of].
  repeat (destruct I as [I|I]; [injection I as <- <-; (crash T O; reflexivity) || (crash_token T O; reflexivity)|]). destruct I.
Qed.
