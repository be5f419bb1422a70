From Coq Require Import String QArith.
From Verif Require Import Base BaseProofs BpeModel BpeSaveModel PatternModel EncodingModel NormalizedModel WordPieceModel UnigramModel.
From Verif Require Import Utf8Model Utf8Proofs AddedVocabModel DecoderModel PreTokenizerModel ProcessorModel SpmModel ConfigModel ConfigSpec.
Open Scope Z_scope.
Open Scope list_scope.

(** ** Members *)

Lemma aget_states : forall fs k v, states fs k v -> aget str_eqb (key k) fs = Some v.
Proof.
  intros fs k v [D I]. induction fs as [|[k' v'] fs IH]; [easy|].
  cbn [aget]. inversion D as [|? ? Nin D']; subst.
  destruct I as [I|I].
  - injection I as -> ->. now rewrite str_eqb_refl.
  - destruct (str_eqb (key k) k') eqn:E.
    + apply str_eqb_eq in E. subst k'. exfalso. apply Nin.
      apply in_map_iff. now exists (key k, v).
    + now apply IH.
Qed.

Lemma fget_states : forall fs k v, states fs k v -> fget k fs = v.
Proof. intros fs k v H. unfold fget. now rewrite (aget_states fs k v H). Qed.

Lemma fget_omits : forall fs k, omits fs k -> fget k fs = JNull.
Proof.
  intros fs k [_ H]. unfold fget. destruct (aget str_eqb (key k) fs) as [v|] eqn:E; [|reflexivity].
  apply H. clear H. induction fs as [|[k' v'] fs IH]; [easy|].
  cbn [aget] in E. destruct (str_eqb (key k) k') eqn:E'.
  - apply str_eqb_eq in E'. subst. injection E as ->. now left.
  - right. now apply IH.
Qed.

Lemma dflt_given : forall A (inj : A -> json) as_ fs k d x,
  (forall a, as_ (inj a) = Ok a) -> (forall a, inj a <> JNull) ->
  given inj fs k d x -> dflt as_ d k fs = Ok x.
Proof.
  intros A inj as_ fs k d x Has Hn [H|[H ->]]; unfold dflt, opt.
  - rewrite (fget_states _ _ _ H). specialize (Hn x).
    destruct (inj x) eqn:E; [easy|..]; rewrite <- E, Has; reflexivity.
  - rewrite (fget_omits _ _ H). reflexivity.
Qed.

Lemma opt_maybe : forall A (inj : A -> json) as_ fs k o,
  (forall a, as_ (inj a) = Ok a) -> (forall a, inj a <> JNull) ->
  maybe inj fs k o -> opt as_ k fs = Ok o.
Proof.
  intros A inj as_ fs k [x|] Has Hn H; unfold opt; cbn [maybe] in H.
  - rewrite (fget_states _ _ _ H). specialize (Hn x).
    destruct (inj x) eqn:E; [easy|..]; rewrite <- E, Has; reflexivity.
  - rewrite (fget_omits _ _ H). reflexivity.
Qed.

Lemma opt_given : forall A (inj : A -> json) as_ fs k d x,
  (forall a, as_ (inj a) = Ok a) -> (forall a, inj a <> JNull) ->
  given inj fs k d x -> exists o, opt as_ k fs = Ok o.
Proof.
  intros A inj as_ fs k d x Has Hn [H|[H _]].
  - exists (Some x). now apply (opt_maybe A inj).
  - exists None. now apply (opt_maybe A inj).
Qed.

Lemma to_int_int : forall z, to_int (z # 1) = z.
Proof. intro z. unfold to_int. cbn. apply Z.quot_1_r. Qed.

Lemma as_int_int : forall z, as_int (jint z) = Ok z.
Proof. intro z. unfold as_int, jint. cbn. now rewrite to_int_int. Qed.

Lemma given_str : forall fs k d x, given JStr fs k d x -> dflt as_str d k fs = Ok x.
Proof. intros. now apply (dflt_given _ JStr). Qed.
Lemma given_bool : forall fs k d x, given JBool fs k d x -> dflt as_bool d k fs = Ok x.
Proof. intros. now apply (dflt_given _ JBool). Qed.
Lemma given_int : forall fs k d x, given jint fs k d x -> dflt as_int d k fs = Ok x.
Proof. intros. apply (dflt_given _ jint); try easy. apply as_int_int. Qed.
Lemma maybe_str : forall fs k o, maybe JStr fs k o -> opt as_str k fs = Ok o.
Proof. intros. now apply (opt_maybe _ JStr). Qed.
Lemma maybe_int : forall fs k o, maybe jint fs k o -> opt as_int k fs = Ok o.
Proof. intros. apply (opt_maybe _ jint); try easy. apply as_int_int. Qed.
Lemma maybe_num : forall fs k o, maybe JNum fs k o -> opt as_num k fs = Ok o.
Proof. intros. now apply (opt_maybe _ JNum). Qed.

Lemma seek_fget : forall A (f : json -> res A) k none fs,
  seek f (key k) none fs = match fget k fs with JNull => none | JArr l => mapR f l | _ => Panic end.
Proof.
  intros A f k none fs. unfold fget. induction fs as [|[k' v] fs IH]; [reflexivity|].
  cbn [seek aget]. destruct (str_eqb (key k) k'); [reflexivity|apply IH].
Qed.

(** Rewriting with everything known of the members. *)
Ltac members :=
  repeat match goal with
  | H : states ?fs ?k ?v |- context [fget ?k ?fs] => rewrite (fget_states fs k v H)
  | H : omits ?fs ?k |- context [fget ?k ?fs] => rewrite (fget_omits fs k H)
  | H : given JStr ?fs ?k ?d ?x |- context [dflt as_str _ ?k ?fs] => rewrite (given_str fs k d x H)
  | H : given JBool ?fs ?k ?d ?x |- context [dflt as_bool _ ?k ?fs] => rewrite (given_bool fs k d x H)
  | H : given jint ?fs ?k ?d ?x |- context [dflt as_int _ ?k ?fs] => rewrite (given_int fs k d x H)
  | H : maybe JStr ?fs ?k ?o |- context [opt as_str ?k ?fs] => rewrite (maybe_str fs k o H)
  | H : maybe jint ?fs ?k ?o |- context [opt as_int ?k ?fs] => rewrite (maybe_int fs k o H)
  | H : maybe JNum ?fs ?k ?o |- context [opt as_num ?k ?fs] => rewrite (maybe_num fs k o H)
  | |- context [as_int (jint ?z)] => rewrite (as_int_int z)
  end.
(** Comparison of two literals. *)
Ltac names :=
  repeat match goal with
  | |- context [str_eqb (key ?a) (key ?b)] =>
      let r := eval vm_compute in (str_eqb (key a) (key b)) in
      change (str_eqb (key a) (key b)) with r; cbv beta iota; cbn [orb andb negb]
  end.
Ltac step := repeat (progress (members; cbn [bind as_str as_bool as_num as_arr as_obj]; names)).

(** ** Components made of components *)

Section Lists.
  Context {A : Type} (f : json -> res A) (R : json -> A -> Prop).
  Lemma mapR_forall2 : forall js xs, Forall2 (fun j x => f j = Ok x) js xs -> mapR f js = Ok xs.
  Proof.
    intros js xs H. induction H as [|j x js xs H _ IH]; [reflexivity|].
    cbn [mapR]. now rewrite H, IH.
  Qed.
End Lists.

Section Parts.
  Variable lower : str -> str.
  Variable base64 : str -> res str.
  Variable compile : str -> option (str -> list (Z * Z)).
  Variable quoted : str -> str -> list (Z * Z).

  Lemma replace_string : forall fs p, pattern_given compile quoted fs false p -> replace_pattern quoted fs = Ok p.
  Proof.
    intros fs p H. inversion H as [pfs s H1 H2 H3 E|]; subst.
    unfold replace_pattern. step. reflexivity.
  Qed.

  Lemma split_regex : forall fs p, pattern_given compile quoted fs true p ->
    exists pfs v s, fget "pattern" fs = JObj pfs /\ aget str_eqb (key "Regex") pfs = Some v /\ as_str v = Ok s
      /\ regexp_pattern compile s = Ok p.
  Proof.
    intros fs p H. inversion H as [|pfs s find H1 H2 H3 H4]; subst.
    exists pfs, (JStr s), s. rewrite (fget_states _ _ _ H1), (aget_states _ _ _ H2).
    unfold regexp_pattern. rewrite H4. auto.
  Qed.

  Lemma behavior_ok : forall t b, In (t, b) behaviors -> behavior_of (key t) = Ok b.
  Proof. intros t b H. cbn in H. repeat (destruct H as [H|H]; [injection H as <- <-; reflexivity|]). easy. Qed.

  Lemma norm_ok : forall j n, intended_norm base64 compile quoted false j n -> norm_of base64 quoted j = Ok n.
  Proof.
    fix IH 3. intros j n H.
    destruct H as [fs clean lowercase chinese strip T H1 H2 H3 H4
                  | fs t l r I T H1 H2 | fs t n I T | fs s data m T H1 H2 H3
                  | fs regex p content T H1 H2 H3 | fs s T H1 | fs js ns T H1 H2].
    - cbn [norm_of]. step. reflexivity.
    - cbn [norm_of]. destruct I as [<-|[<-|[]]]; step; reflexivity.
    - cbn [norm_of]. cbn in I. repeat (destruct I as [I|I]; [injection I as <- <-; step; reflexivity|]). easy.
    - cbn [norm_of]. step. unfold create_precompiled.
      rewrite (maybe_str fs "precompiled_charsmap" (Some s) H1). cbn [bind].
      rewrite H2. cbn [bind]. rewrite H3. reflexivity.
    - cbn [norm_of]. step. rewrite (H2 eq_refl) in H1. rewrite (replace_string fs p H1). cbn [bind]. step. reflexivity.
    - cbn [norm_of]. step. reflexivity.
    - cbn [norm_of]. step. rewrite seek_fget. step.
      assert (E : mapR (norm_of base64 quoted) js = Ok ns).
      { apply mapR_forall2. clear T H1. induction H2 as [|j x js xs H _ IH2]; constructor; [now apply IH|exact IH2]. }
      rewrite E. reflexivity.
  Qed.

  Lemma runes_encode_cons : forall r rest, Forall scalar (r :: rest) -> exists q, runes (encode (r :: rest)) = r :: q.
  Proof. intros r rest H. exists rest. now apply runes_encode. Qed.

  Lemma pre_ok : forall j n, intended_pre lower compile quoted false j n -> pretok_of lower compile j = Ok n.
  Proof.
    fix IH 3. intros j n H.
    destruct H as [fs t p I T | fs prefix trim T H1 H2 | fs r rest T H1 H2
                  | fs rep find s t scheme T H1 H2 H3 H4 H5 | fs rep find prefix T H1 H2 H3 H4
                  | fs t b T H1 H2 | fs b T H1 | fs regex p t b inv T H1 H2 H3 H4 H5 | fs js ps T H1 H2].
    - cbn [pretok_of]. cbn in I. repeat (destruct I as [I|I]; [injection I as <- <-; step; reflexivity|]). easy.
    - cbn [pretok_of]. step. unfold byte_level_of. step. reflexivity.
    - cbn [pretok_of]. step. destruct (runes_encode_cons r rest H2) as [q ->]. reflexivity.
    - cbn [pretok_of]. step. unfold create_metaspace. step. cbn zeta.
      rewrite (maybe_str fs "prepend_scheme" (Some s) H3). cbn [bind]. rewrite H2, H4.
      cbn in H5. repeat (destruct H5 as [H5|H5]; [injection H5 as <- <-; names; reflexivity|]). easy.
    - cbn [pretok_of]. step. unfold create_metaspace. step. cbn zeta.
      rewrite (maybe_str fs "prepend_scheme" None H3). cbn [bind]. rewrite H2. step. reflexivity.
    - cbn [pretok_of]. step. rewrite (behavior_ok t b H2). reflexivity.
    - cbn [pretok_of]. step. reflexivity.
    - cbn [pretok_of]. step. unfold create_split. rewrite (H2 eq_refl) in H1.
      destruct (split_regex fs p H1) as (pfs & v & s & E1 & E2 & E3 & E4).
      rewrite E1. step. rewrite E2, E3. cbn [bind]. rewrite E4. cbn [bind]. rewrite (behavior_ok t b H4). reflexivity.
    - cbn [pretok_of]. step. rewrite seek_fget. step.
      assert (E : mapR (pretok_of lower compile) js = Ok ps).
      { apply mapR_forall2. clear T H1. induction H2 as [|j x js xs H _ IH2]; constructor; [now apply IH|exact IH2]. }
      rewrite E. reflexivity.
  Qed.

  Lemma decoder_ok : forall j n, intended_decoder lower compile quoted false j n -> decoder_of quoted j = Ok n.
  Proof.
    fix IH 3. intros j n H.
    destruct H as [fs s T H1 | fs t d I T | fs prefix trim T H1 H2 | fs p c T H1 H2 | fs rep prefix T H1 H2 H3
                  | fs rep s t scheme A | fs pad delim c T H1 H2 H3 | fs regex p content T H1 H2 H3
                  | fs content start stop T H1 H2 H3 | fs js ds T H1 H2].
    - cbn [decoder_of]. step. reflexivity.
    - cbn [decoder_of]. cbn in I. repeat (destruct I as [I|I]; [injection I as <- <-; step; reflexivity|]). easy.
    - cbn [decoder_of]. step. unfold byte_level_of. step. reflexivity.
    - cbn [decoder_of]. step. reflexivity.
    - cbn [decoder_of]. step. reflexivity.
    - discriminate A.
    - cbn [decoder_of]. step. reflexivity.
    - cbn [decoder_of]. step. rewrite (H2 eq_refl) in H1. rewrite (replace_string fs p H1). cbn [bind]. step. reflexivity.
    - cbn [decoder_of]. step. reflexivity.
    - cbn [decoder_of]. step. rewrite seek_fget. step.
      assert (E : mapR (decoder_of quoted) js = Ok ds).
      { apply mapR_forall2. clear T H1. induction H2 as [|j x js xs H _ IH2]; constructor; [now apply IH|exact IH2]. }
      rewrite E. reflexivity.
  Qed.
End Parts.

(** ** Post-processors *)

Lemma post_token_ok : forall fs k t, token_given fs k t -> post_token_of k fs = Ok t.
Proof.
  intros fs k [v i] H. unfold token_given in H. cbn [pt_value pt_id] in H.
  unfold post_token_of. rewrite (fget_states _ _ _ H). cbn [as_arr bind].
  change (zindex [JStr v; jint i] 0) with (Ok (JStr v)). change (zindex [JStr v; jint i] 1) with (Ok (jint i)).
  cbn [as_str bind]. now rewrite as_int_int.
Qed.

Lemma opt_states : forall A (as_ : json -> res A) fs k v, v <> JNull -> states fs k v ->
  opt as_ k fs = (do x <- as_ v; Ok (Some x)).
Proof. intros A as_ fs k v N H. unfold opt. rewrite (fget_states _ _ _ H). now destruct v. Qed.
Lemma opt_omits : forall A (as_ : json -> res A) fs k, omits fs k -> opt as_ k fs = Ok None.
Proof. intros A as_ fs k H. unfold opt. now rewrite (fget_omits _ _ H). Qed.

Lemma piece_ok : forall j p, piece_json j p -> pieces_of j = Ok [p].
Proof.
  intros j p H.
  destruct H as [fs item ty H1 H2 H3 H4|fs item ty H1 H2 H3 H4|fs item id ty H1 H2 H3 H4];
    unfold pieces_of; cbn [as_obj bind].
  - rewrite (opt_states _ _ _ _ (JObj item) ltac:(easy) H1). step. rewrite (opt_omits _ _ _ _ H2). reflexivity.
  - rewrite (opt_states _ _ _ _ (JObj item) ltac:(easy) H1). step. rewrite (opt_omits _ _ _ _ H2). reflexivity.
  - rewrite (opt_omits _ _ _ _ H2). cbn [bind].
    rewrite (opt_states _ _ _ _ (JObj item) ltac:(easy) H1). step. reflexivity.
Qed.

Lemma template_ok : forall fs k tpl, template_given fs k tpl -> template_of k fs = Ok tpl.
Proof.
  intros fs k tpl [(js & H & F)|[H ->]]; unfold template_of.
  - rewrite (opt_states _ _ _ _ (JArr js) ltac:(easy) H). cbn [as_arr bind].
    assert (E : mapR pieces_of js = Ok (map (fun p => [p]) tpl)).
    { clear H. induction F as [|j p js tpl P _ IH]; [reflexivity|]. cbn [mapR map]. now rewrite (piece_ok _ _ P), IH. }
    rewrite E. cbn [bind]. f_equal. clear. induction tpl as [|p tpl IH]; [reflexivity|]. cbn. now rewrite IH.
  - rewrite (opt_omits _ _ _ _ H). reflexivity.
Qed.

Lemma mapR_map : forall A B C (f : B -> res C) (g : A -> B) (h : A -> C) l,
  (forall x, f (g x) = Ok (h x)) -> mapR f (map g l) = Ok (map h l).
Proof. intros A B C f g h l H. induction l as [|x l IH]; [reflexivity|]. cbn [mapR map]. now rewrite H, IH. Qed.

Lemma fold_aset_app : forall V (l m : list (str * V)), NoDup (map fst (m ++ l)) ->
  fold_left (fun a p => aset str_eqb (fst p) (snd p) a) l m = m ++ l.
Proof.
  intros V l. induction l as [|[k v] l IH]; intros m N; [now rewrite app_nil_r|].
  cbn [fold_left fst snd].
  assert (E : aset str_eqb k v m = m ++ [(k, v)]).
  { apply (aset_fresh str_eqb str_eqb_eq). intro I. rewrite map_app in N. apply NoDup_remove_2 in N.
    apply N. apply in_or_app. now left. }
  rewrite E, IH; rewrite <- app_assoc; [reflexivity|exact N].
Qed.

Lemma specials_ok : forall fs ts, specials_given fs ts -> specials_of fs = Ok (Some ts).
Proof.
  intros fs ts (m & H & F & N). unfold specials_of.
  rewrite (opt_states _ _ _ _ (JObj m) ltac:(easy) H). cbn [as_obj bind].
  assert (E : mapR (fun p => special_of (snd p)) m = Ok ts).
  { clear H N. induction F as [|[k j] [id [is tks]] m ts (d & E & H1 & H2 & H3) _ IH]; [reflexivity|].
    cbn [mapR]. cbn [fst snd] in *. subst j. unfold special_of at 1. step.
    rewrite (mapR_map _ _ _ as_int jint (fun z => z)) by apply as_int_int. cbn [bind]. step.
    rewrite (mapR_map _ _ _ as_str JStr (fun z => z)) by reflexivity. cbn [bind].
    rewrite IH, !map_id. reflexivity. }
  rewrite E. cbn [bind]. do 2 f_equal. now apply (fold_aset_app _ ts []).
Qed.

Lemma processor_ok : forall j p, intended_processor j p -> processor_of j = Ok p.
Proof.
  fix IH 3. intros j p H.
  destruct H as [fs cls sep trim prefix T H1 H2 H3 H4 | fs cls sep T H1 H2 | fs prefix trim T H1 H2
                | fs single both ts T H1 H2 H3 | fs js ps T H1 H2].
  - cbn [processor_of]. step. rewrite (post_token_ok _ _ _ H1). cbn [bind]. rewrite (post_token_ok _ _ _ H2). step. reflexivity.
  - cbn [processor_of]. step. rewrite (post_token_ok _ _ _ H1). cbn [bind]. rewrite (post_token_ok _ _ _ H2). reflexivity.
  - cbn [processor_of]. step. unfold byte_level_of. step. reflexivity.
  - cbn [processor_of]. step. unfold create_template.
    rewrite (template_ok _ _ _ H1), (template_ok _ _ _ H2), (specials_ok _ _ H3). reflexivity.
  - cbn [processor_of]. step. rewrite seek_fget. step.
    assert (E : mapR processor_of js = Ok ps).
    { apply mapR_forall2. clear T H1. induction H2 as [|j x js xs H _ IH2]; constructor; [now apply IH|exact IH2]. }
    rewrite E. reflexivity.
Qed.

(** ** Truncation and padding *)
Lemma trunc_ok : forall j t, intended_trunc j t -> trunc_of j = Ok t.
Proof.
  intros j t H. destruct H as [fs max stride t st H1 H2 H3 I].
  unfold trunc_of. step. cbn in I. repeat (destruct I as [I|I]; [injection I as <- <-; names; reflexivity|]). easy.
Qed.

Lemma given_num_match : forall fs k z, given jint fs k 0 z ->
  match fget k fs with JNum q => to_int q | _ => 0 end = z.
Proof.
  intros fs k z [H|[H ->]]; [rewrite (fget_states _ _ _ H)|now rewrite (fget_omits _ _ H)]. apply to_int_int.
Qed.

Lemma pad_ok : forall j p, intended_pad j p -> pad_of j = Ok p.
Proof.
  intros j p H. destruct H as [fs st dir id ty tok S D H1 H2 H3].
  unfold pad_of. cbn [as_obj bind].
  assert (E1 : let '(name, size) := strategy_of fs in
               (if str_eqb name (key "BatchLongest") then BatchLongest else Fixed size) = st).
  { unfold strategy_of. destruct S as [H|n H|n H G]; rewrite (fget_states _ _ _ H); cbn [fold_left fst snd]; names.
    - reflexivity.
    - unfold size_of, jint. now rewrite to_int_int.
    - destruct G as [G|[G ->]]; [rewrite (fget_states _ _ _ G)|rewrite (fget_omits _ _ G)]; [|reflexivity].
      unfold size_of, jint. now rewrite to_int_int. }
  destruct (strategy_of fs) as [name size]. rewrite E1. cbn zeta.
  rewrite (given_num_match _ _ _ H1), (given_num_match _ _ _ H2).
  assert (E3 : match fget "pad_token" fs with JStr s => s | _ => key "[PAD]" end = tok).
  { destruct H3 as [H|[H ->]]; [now rewrite (fget_states _ _ _ H)|now rewrite (fget_omits _ _ H)]. }
  rewrite E3. do 2 f_equal.
  destruct D as [t [<-|[<-|[]]] H|t [<-|[<-|[]]] H|H];
    first [rewrite (fget_states _ _ _ H); reflexivity|rewrite (fget_omits _ _ H); reflexivity].
Qed.
