(** Proofs about the offsets of encodings: sequences, pairs and post-processing. *)
From Verif Require Import Base BaseProofs Utf8Model NormalizedModel NormalizedSpec NormalizedInvProofs NormalizedOpProofs EncodingModel EncodingSpec EncodingProofs BpeModel
  AddedVocabModel AddedVocabSpec PreTokenizedModel PreTokenizedSpec PreTokenizedProofs ProcessorModel ProcessorSpec ProcessorProofs PipelineModel PipelineSpec PipelineProofs.
Open Scope Z_scope.

Lemma all_offsets_inv P e : all_offsets P e -> Forall P (offsets e) /\ Forall (all_offsets P) (overflowing e).
Proof. intros H; inversion H; auto. Qed.
Lemma all_offsets_mono (P Q : Z * Z -> Prop) : (forall o, P o -> Q o) -> forall e, all_offsets P e -> all_offsets Q e.
Proof.
  intros H e. induction e as [e IH] using Encoding_ind'. intros A. apply all_offsets_inv in A as [A1 A2]. constructor.
  - eapply Forall_impl; [|exact A1]. exact H.
  - clear A1. induction IH as [|x l Hx _ IHl]; [constructor|]. inversion A2; subst. constructor; auto.
Qed.

Section Offsets.
  Variable P : Z * Z -> Prop.
  Hypothesis P0 : P (0, 0).
  Hypothesis Ptrim : forall prefix i tok o, P o -> P (trim_offset prefix i tok o).

  Lemma offsets_flat e : all_offsets P e -> Forall P (offsets e).
  Proof. intros H. apply all_offsets_inv in H. tauto. Qed.

  Lemma merge_with_offsets e : forall p r, all_offsets P e -> all_offsets P p -> merge_with false e p = Ok r -> all_offsets P r.
  Proof.
    induction e as [e IHe] using Encoding_ind'.
    intros p; induction p as [p IHp] using Encoding_ind'; intros r He Hp H.
    pose proof (merge_with_flat _ _ _ _ H) as Hflat. rewrite merge_with_eq in H.
    apply bind_Ok_inv in H as (p1 & H1 & H). apply bind_Ok_inv in H as (p2 & H2 & H).
    apply merge_flat_inv in H as [Hov _].
    pose proof (all_offsets_inv _ _ He) as [He1 He2]. pose proof (all_offsets_inv _ _ Hp) as [Hp1 Hp2].
    constructor.
    - change (offsets r) with (offsets (flat r)). rewrite Hflat. cbn [offsets enc_append growth]. rewrite shift0. apply Forall_app. auto.
    - rewrite Hov. apply Forall_app. split.
      + apply mapR_Ok_Forall2 in H1. clear H2 Hov Hflat. revert He2 IHe. induction H1 as [|o ms l l' Hom H1 IH]; intros He2 IHe; [constructor|].
        cbn. inversion He2; inversion IHe; subst. apply Forall_app. split; [|now apply IH].
        apply bind_Ok_inv in Hom as (m0 & Hm0 & Hom). apply bind_Ok_inv in Hom as (ms0 & Hms & Hom). injection Hom as <-.
        constructor; [eauto|]. apply mapR_Ok_Forall2 in Hms. clear -Hms Hp2 H2 H6. revert Hp2.
        induction Hms as [|q m l l' Hq Hms IH]; intros Hp2; [constructor|]. inversion Hp2; subst. constructor; eauto.
      + apply mapR_Ok_Forall2 in H2. clear H1 Hov Hflat IHe. revert Hp2 IHp. induction H2 as [|q m l l' Hq H2 IH]; intros Hp2 IHp; [constructor|].
        inversion Hp2; inversion IHp; subst. constructor; [eauto|now apply IH].
  Qed.
  Lemma merges_offsets l : forall e r, all_offsets P e -> Forall (all_offsets P) l -> foldR (fun acc p => merge_with false acc p) l e = Ok r -> all_offsets P r.
  Proof.
    induction l as [|p l IH]; intros e r He Hl; cbn [foldR]; [intros [= <-]; exact He|]. inversion Hl; subst.
    destruct (merge_with false e p) as [x| | | |] eqn:E; try discriminate. apply IH; [|assumption]. apply (merge_with_offsets e p x); assumption.
  Qed.

  Lemma zslice_incl {A} (l : list A) a b l' : zslice l a b = Ok l' -> incl l' l.
  Proof.
    unfold zslice. match goal with |- (if ?b then _ else _) = _ -> _ => destruct b end; try discriminate. intros [= <-] x Hx.
    rewrite <- (firstn_skipn (Z.to_nat a) l). apply in_or_app. right.
    rewrite <- (firstn_skipn (Z.to_nat (b - a)) (skipn (Z.to_nat a) l)). apply in_or_app. now left.
  Qed.
  Lemma current_part_incl {A} (previous current : list A) size idx stride :
    incl (get_current_part previous current size idx stride) (previous ++ current).
  Proof.
    unfold get_current_part. destruct (_ || _)%bool; [intros x []|].
    assert (F : forall n (l : list A), incl (firstn n l) l) by (intros n l x Hx; rewrite <- (firstn_skipn n l); apply in_or_app; now left).
    assert (K : forall n (l : list A), incl (skipn n l) l) by (intros n l x Hx; rewrite <- (firstn_skipn n l); apply in_or_app; now right).
    cbv zeta. destruct (_ <=? _).
    - apply incl_appl, K.
    - apply incl_app; [apply incl_appl, K|]. apply incl_appr. eapply incl_tran; [apply F|apply K].
  Qed.
  Lemma parts_offsets fuel : forall prev o size i stride ws, Forall P (offsets prev) -> Forall P (offsets o) ->
    overflow_parts fuel prev o size i stride = Ok ws -> Forall (all_offsets P) ws.
  Proof.
    induction fuel as [|fuel IH]; intros prev o size i stride ws H1 H2; cbn [overflow_parts]; destruct (_ <? _); try discriminate; try (intros [= <-]; constructor).
    destruct (overflow_parts fuel _ _ _ _ _) as [ws'| | | |] eqn:E; cbn [bind]; try discriminate. intros [= <-].
    assert (W : Forall P (get_current_part (offsets prev) (offsets o) size i stride)).
    { apply Forall_forall. intros x Hx. apply current_part_incl in Hx. apply in_app_or in Hx. rewrite Forall_forall in H1, H2. destruct Hx; auto. }
    constructor; [constructor; [exact W|constructor]|]. eapply IH; [| |exact E]; assumption.
  Qed.
  Lemma truncate_offsets e m s e' b : all_offsets P e -> truncate e m s = Ok (e', b) -> all_offsets P e'.
  Proof.
    intros He H. unfold truncate in H.
    destruct ((m <=? s) || (m =? 0))%Z; [injection H as <- <-; exact He|].
    destruct (zlen (ids e) <=? m)%Z; [injection H as <- <-; exact He|].
    repeat match type of H with
    | bind (zslice _ _ _) _ = _ => let x := fresh "x" in let Hx := fresh "Hx" in apply bind_Ok_inv in H as (x & Hx & H)
    end.
    apply bind_Ok_inv in H as (parts & Hp & H). injection H as <- <-.
    assert (F : forall x a c, zslice (offsets e) a c = Ok x -> Forall P x).
    { intros xx a c Hxx. apply Forall_forall. intros y Hy. apply (zslice_incl _ _ _ _ Hxx) in Hy. apply offsets_flat in He. rewrite Forall_forall in He. auto. }
    constructor; cbn [offsets overflowing]; [eauto|]. eapply parts_offsets; [| |exact Hp]; cbn [offsets]; eauto.
  Qed.
  Lemma truncate_ignoring_offsets e m s e' : all_offsets P e -> truncate_ignoring_error e m s = Ok e' -> all_offsets P e'.
  Proof. intros He H. apply bind_Ok_inv in H as ([x b] & H & E). injection E as <-. eapply truncate_offsets; eauto. Qed.

  Definition pair_offsets (pair : option Encoding) : Prop := match pair with Some p => all_offsets P p | None => True end.

  Lemma truncate_encodings_offsets e pair st m s e' pair' : all_offsets P e -> pair_offsets pair ->
    truncate_encodings e pair st m s = Ok (e', pair') -> all_offsets P e' /\ pair_offsets pair'.
  Proof.
    intros He Hp. unfold truncate_encodings. destruct (m =? 0); [intros [= <- <-]; auto|]. cbv zeta. destruct (_ <? m); [intros [= <- <-]; auto|].
    destruct st.
    - destruct (longest_first_loop _ _ _) as [n1 n2]. intros H. apply bind_Ok_inv in H as (x & Hx & H). apply truncate_ignoring_offsets in Hx; [|exact He].
      destruct pair as [p|]; [|injection H as <- <-; auto]. apply bind_Ok_inv in H as (y & Hy & H). injection H as <- <-. split; [exact Hx|].
      exact (truncate_ignoring_offsets _ _ _ _ Hp Hy).
    - destruct (_ <? enc_len e); [|discriminate]. intros H. apply bind_Ok_inv in H as (x & Hx & H). injection H as <- <-. split; [|exact Hp].
      eapply truncate_ignoring_offsets; eauto.
    - destruct pair as [p|]; [|discriminate]. destruct (_ <? enc_len p); [|discriminate]. intros H. apply bind_Ok_inv in H as (x & Hx & H). injection H as <- <-.
      split; [exact He|]. exact (truncate_ignoring_offsets _ _ _ _ Hp Hx).
  Qed.

  Lemma repeat_P n : Forall P (repeat (0, 0) n).
  Proof. apply Forall_forall. intros x Hx. apply repeat_spec in Hx. now subst. Qed.
  Lemma pad1_offsets e t a b c d e' : all_offsets P e -> pad1 e t a b c d = Ok e' -> all_offsets P e'.
  Proof.
    intros He. apply all_offsets_inv in He as [H1 H2]. unfold pad1. destruct d.
    - destruct (_ <? 0); [discriminate|]. cbv zeta. destruct (_ <? _); [discriminate|]. intros [= <-]. constructor; cbn; [|exact H2].
      apply Forall_app. split; [apply repeat_P|exact H1].
    - intros [= <-]. constructor; cbn; [|exact H2]. apply Forall_app. split; [exact H1|apply repeat_P].
  Qed.
  Lemma pad_offsets e t a b c d e' : all_offsets P e -> pad e t a b c d = Ok e' -> all_offsets P e'.
  Proof.
    intros He H. apply bind_Ok_inv in H as (over & Ho & H). apply mapR_Ok_Forall2 in Ho. cbv zeta in H.
    assert (K : all_offsets P (set_overflowing e over)).
    { apply all_offsets_inv in He as [H1 H2]. constructor; [exact H1|]. cbn. clear H1 H. revert H2.
      induction Ho as [|x y l l' Hxy Ho IH]; intros H2; [constructor|]. inversion H2; subst. constructor; [eapply pad1_offsets; eauto|auto]. }
    destruct (_ <=? _); [injection H as <-; exact K|]. eapply pad1_offsets; eauto.
  Qed.

  Lemma default_offsets e pair r : all_offsets P e -> pair_offsets pair -> default_process e pair = Ok r -> all_offsets P r.
  Proof. intros He Hp. destruct pair as [p|]; cbn; [apply merge_with_offsets; assumption|now intros [= <-]]. Qed.

  Lemma framed_offsets (add : Encoding -> Encoding) e : (forall x, Forall P (offsets x) -> Forall P (offsets (add x)) /\ overflowing (add x) = []) ->
    all_offsets P e -> all_offsets P (set_overflowing (add e) (map add (overflowing e))).
  Proof.
    intros H He. apply all_offsets_inv in He as [H1 H2]. constructor; cbn; [now apply H|]. apply Forall_map. eapply Forall_impl; [|exact H2].
    intros x Hx. apply offsets_flat in Hx. destruct (H x Hx) as [Y1 Y2]. constructor; [exact Y1|rewrite Y2; constructor].
  Qed.
  Lemma add_and_merge_offsets add pair_add e pair r :
    (forall x, Forall P (offsets x) -> Forall P (offsets (add x)) /\ overflowing (add x) = []) ->
    (forall x, Forall P (offsets x) -> Forall P (offsets (pair_add x)) /\ overflowing (pair_add x) = []) ->
    all_offsets P e -> pair_offsets pair -> add_and_merge add pair_add e pair = Ok r -> all_offsets P r.
  Proof.
    intros H1 H2 He Hp. unfold add_and_merge. cbv zeta. destruct pair as [p|].
    - apply merge_with_offsets; now apply framed_offsets.
    - intros [= <-]. now apply framed_offsets.
  Qed.
  Lemma bert_add_offsets cls sep x : Forall P (offsets x) -> Forall P (offsets (bert_add cls sep x)) /\ overflowing (bert_add cls sep x) = [].
  Proof. intros H. split; [|reflexivity]. cbn. constructor; [exact P0|]. apply Forall_app. split; [exact H|constructor; [exact P0|constructor]]. Qed.
  Lemma bert_pair_offsets sep x : Forall P (offsets x) -> Forall P (offsets (bert_pair_add sep x)) /\ overflowing (bert_pair_add sep x) = [].
  Proof. intros H. split; [|reflexivity]. cbn. apply Forall_app. split; [exact H|constructor; [exact P0|constructor]]. Qed.
  Lemma roberta_add_offsets cls sep x : Forall P (offsets x) -> Forall P (offsets (roberta_add cls sep x)) /\ overflowing (roberta_add cls sep x) = [].
  Proof. apply (bert_add_offsets cls sep x). Qed.
  Lemma roberta_pair_offsets sep x : Forall P (offsets x) -> Forall P (offsets (roberta_pair_add sep x)) /\ overflowing (roberta_pair_add sep x) = [].
  Proof. apply (bert_add_offsets sep sep x). Qed.

  Lemma trim_from_offsets prefix toks : forall i offs r, Forall P offs -> trim_from prefix i toks offs = Ok r -> Forall P r.
  Proof.
    induction toks as [|t toks IH]; intros i [|o offs] r H; cbn [trim_from]; try discriminate; try (intros [= <-]; constructor).
    inversion H; subst. intros E. apply bind_Ok_inv in E as (rest & E & X). injection X as <-. constructor; [auto|eauto].
  Qed.
  Lemma process_offsets_offsets prefix e e' : all_offsets P e -> process_offsets prefix e = Ok e' -> all_offsets P e'.
  Proof.
    intros He H. apply bind_Ok_inv in H as (o & Ho & H). injection H as <-. apply all_offsets_inv in He as [H1 H2].
    constructor; cbn; [eapply trim_from_offsets; eauto|exact H2].
  Qed.
  Lemma process_all_offsets_offsets prefix e e' : all_offsets P e -> process_all_offsets prefix e = Ok e' -> all_offsets P e'.
  Proof.
    intros He H. apply bind_Ok_inv in H as (e1 & H1 & H). apply bind_Ok_inv in H as (over & Ho & H). injection H as <-.
    apply process_offsets_offsets in H1; [|exact He]. apply all_offsets_inv in H1 as [A1 A2]. apply mapR_Ok_Forall2 in Ho. constructor; cbn; [exact A1|].
    clear A1. revert A2. induction Ho as [|x y l l' Hxy Ho IH]; intros A2; [constructor|]. inversion A2; subst. constructor; [eapply process_offsets_offsets; eauto|auto].
  Qed.

  Lemma with_range_offsets i e : all_offsets P e -> all_offsets P (with_range i e).
  Proof.
    intros He. apply all_offsets_inv in He as [H1 H2]. constructor; [|now rewrite with_range_over].
    change (offsets (with_range i e)) with (offsets (flat (with_range i e))). rewrite with_range_flat. exact H1.
  Qed.
  Lemma set_type_offsets e ty : all_offsets P e -> all_offsets P (set_type_ids e ty).
  Proof. intros He. apply all_offsets_inv in He as [H1 H2]. now constructor. Qed.
  Lemma prepare_offsets i e e' : all_offsets P e -> prepare i e = Ok e' -> all_offsets P e'.
  Proof.
    intros He H. apply bind_Ok_inv in H as (e1 & H1 & H). rewrite set_sequence_ids_ok in H1. injection H1 as <-.
    apply bind_Ok_inv in H as (over & Ho & H). apply (with_range_offsets i) in He. apply all_offsets_inv in He as [H1 H2].
    assert (K : all_offsets P (set_overflowing (with_range i e) over)).
    { constructor; [exact H1|]. cbn. apply mapR_Ok_Forall2 in Ho. clear H H1. revert H2. induction Ho as [|x y l l' Hxy Ho IH]; intros H2; [constructor|].
      inversion H2; subst. rewrite set_sequence_ids_ok in Hxy. injection Hxy as <-. constructor; [now apply with_range_offsets|auto]. }
    injection H as <-. destruct (0 <? _); [now apply set_type_offsets|exact K].
  Qed.
  Lemma prepare_encodings_offsets e pair l : all_offsets P e -> pair_offsets pair -> prepare_encodings e pair = Ok l -> Forall (all_offsets P) l.
  Proof.
    intros He Hp H. apply bind_Ok_inv in H as (e1 & H1 & H). apply prepare_offsets in H1; [|exact He].
    destruct pair as [p|]; [|injection H as <-; auto]. apply bind_Ok_inv in H as (p1 & H2 & H). injection H as <-. apply prepare_offsets in H2; [|exact Hp]. auto.
  Qed.
  Lemma apply_piece_offsets toks encs add p l : Forall (all_offsets P) encs -> apply_piece toks encs add p = Ok l -> Forall (all_offsets P) l.
  Proof.
    intros H. destruct p as [b ty|id ty]; cbn [apply_piece].
    - intros E. apply bind_Ok_inv in E as (e & E1 & E). apply bind_Ok_inv in E as (e' & E2 & E). injection E as <-. rewrite set_sequence_ids_ok in E2. injection E2 as <-.
      constructor; [|constructor]. apply with_range_offsets, set_type_offsets. unfold zindex in E1. destruct (0 <=? _); [|discriminate].
      destruct (nth_error encs _) as [x|] eqn:En; [|discriminate]. injection E1 as <-. rewrite Forall_forall in H. apply H. eapply nth_error_In, En.
    - destruct add; [|intros [= <-]; constructor]. destruct (aget str_eqb id toks) as [[i t]|]; [|discriminate]. intros [= <-].
      constructor; [|constructor]. constructor; cbn; [apply repeat_P|constructor].
  Qed.
  Lemma template_offsets single both toks e pair add r : all_offsets P e -> pair_offsets pair ->
    template_process single both toks e pair add = Ok (Some r) -> all_offsets P r.
  Proof.
    intros He Hp H. apply bind_Ok_inv in H as (encs & H1 & H). apply prepare_encodings_offsets in H1; [|exact He|exact Hp].
    apply bind_Ok_inv in H as (l & H2 & H). apply bind_Ok_inv in H2 as (ll & H2 & E). injection E as <-.
    assert (K : Forall (all_offsets P) (concat ll)).
    { apply mapR_Ok_Forall2 in H2. clear H. induction H2 as [|p x tpl ll Hx H2 IH]; [constructor|]. cbn. apply Forall_app. split; [exact (apply_piece_offsets _ _ _ _ _ H1 Hx)|exact IH]. }
    unfold merge_encodings in H. destruct (concat ll) as [|e0 l0]; [discriminate|]. apply bind_Ok_inv in H as (x & Hx & E). injection E as <-.
    inversion K; subst. eapply merges_offsets; eauto.
  Qed.
  Lemma bytelevel_offsets prefix trim e pair r : all_offsets P e -> pair_offsets pair ->
    bytelevel_process prefix trim e pair = Ok r -> all_offsets P r.
  Proof.
    intros He Hp H. apply bind_Ok_inv in H as (encs & H1 & H). apply prepare_encodings_offsets in H1; [|exact He|exact Hp].
    apply bind_Ok_inv in H as (encs2 & H2 & H).
    assert (K : Forall (all_offsets P) encs2).
    { destruct trim; [|injection H2 as <-; exact H1]. apply mapR_Ok_Forall2 in H2. clear H. revert H1.
      induction H2 as [|x y l l' Hxy H2 IH]; intros H1; [constructor|]. inversion H1; subst. constructor; [eapply process_all_offsets_offsets; eauto|auto]. }
    destruct encs2 as [|e0 l0]; [discriminate|]. inversion K; subst. eapply merges_offsets; eauto.
  Qed.
  Lemma roberta_offsets cls sep trim prefix e pair add r : all_offsets P e -> pair_offsets pair ->
    roberta_process cls sep trim prefix e pair add = Ok (Some r) -> all_offsets P r.
  Proof.
    intros He Hp. unfold roberta_process. destruct trim; [|destruct add; discriminate]. intros H.
    apply bind_Ok_inv in H as (e1 & H1 & H). apply process_all_offsets_offsets in H1; [|exact He].
    apply bind_Ok_inv in H as (p1 & H2 & H).
    assert (K : pair_offsets p1).
    { destruct pair as [p|]; [|injection H2 as <-; exact I]. apply bind_Ok_inv in H2 as (p2 & H2 & E). injection E as <-. exact (process_all_offsets_offsets _ _ _ Hp H2). }
    apply bind_Ok_inv in H as (x & Hx & E). injection E as <-. destruct add; cbn [negb] in Hx.
    - eapply add_and_merge_offsets; [| | | |exact Hx]; auto using roberta_add_offsets, roberta_pair_offsets.
    - eapply default_offsets; eauto.
  Qed.

  Lemma process_keeps : forall p e pair add r, all_offsets P e -> pair_offsets pair -> process p e pair add = Ok (Some r) -> all_offsets P r.
  Proof.
    fix IH 1. intros p e pair add r He Hp. destruct p as [cls sep|cls sep trim prefix|single both toks|prefix trim|l].
    - cbn [process]. intros H. apply bind_Ok_inv in H as (x & Hx & E). injection E as <-. unfold bert_process in Hx. destruct add; cbn [negb] in Hx.
      + eapply add_and_merge_offsets; [| | | |exact Hx]; auto using bert_add_offsets, bert_pair_offsets.
      + eapply default_offsets; eauto.
    - apply roberta_offsets; assumption.
    - apply template_offsets; assumption.
    - cbn [process]. intros H. apply bind_Ok_inv in H as (x & Hx & E). injection E as <-. eapply bytelevel_offsets; eauto.
    - rewrite sequence_run. revert e He. induction l as [|q l IHl]; intros e He; cbn [run_all].
      + intros [= <-]. exact He.
      + destruct (process q e pair add) as [[x|]| | | |] eqn:Eq; cbn [bind]; try discriminate.
        * apply IHl. exact (IH q e pair add x He Hp Eq).
        * intros H. apply run_all_none in H. destruct H.
  Qed.

  Lemma post_process_keeps proc trunc padding e pair add r : all_offsets P e -> pair_offsets pair ->
    post_process proc trunc padding e pair add = Ok (Some r) -> all_offsets P r.
  Proof.
    intros He Hp H. apply bind_Ok_inv in H as ([e1 p1] & H1 & H).
    assert (K : all_offsets P e1 /\ pair_offsets p1).
    { unfold post_truncate in H1. destruct trunc as [t|]; [|injection H1 as <- <-; auto]. eapply truncate_encodings_offsets; eauto. }
    destruct K as [K1 K2]. cbn [fst snd] in H. apply bind_Ok_inv in H as (x & Hx & H).
    assert (Q : forall y, x = Some y -> all_offsets P y).
    { intros y ->. destruct proc as [p|]; [eapply process_keeps; eauto|]. apply bind_Ok_inv in Hx as (z & Hz & E). injection E as <-. eapply default_offsets; eauto. }
    destruct padding as [d|]; [|injection H as ->; auto]. destruct x as [x|]; [|discriminate].
    apply bind_Ok_inv in H as (l & Hl & H). unfold pad_encodings in Hl. cbv zeta in Hl. apply mapR_Ok_Forall2 in Hl. inversion Hl; subst.
    match goal with X : Forall2 _ [] _ |- _ => inversion X; subst end. injection H as <-.
    match goal with X : pad _ _ _ _ _ _ = Ok _ |- _ => exact (pad_offsets _ _ _ _ _ _ _ (Q _ eq_refl) X) end.
  Qed.
End Offsets.

(** ** Sequences *)
Lemma merge_plain e p r : merge_with false e p = Ok r -> overflowing e = [] -> overflowing p = [] ->
  offsets r = offsets e ++ offsets p /\ overflowing r = [].
Proof.
  intros H He Hp. pose proof (merge_with_flat _ _ _ _ H) as F. pose proof (merge_with_overflow _ _ _ _ H) as O. split.
  - change (offsets r) with (offsets (flat r)). rewrite F. cbn [offsets enc_append growth]. now rewrite shift0.
  - unfold over_spec in O. rewrite He, Hp in O. cbn in O. destruct (overflowing r); [reflexivity|discriminate].
Qed.
Lemma merges_plain l : forall e r, foldR (fun acc p => merge_with false acc p) l e = Ok r -> overflowing e = [] -> Forall (fun p => overflowing p = []) l ->
  offsets r = offsets e ++ concat (map offsets l) /\ overflowing r = [].
Proof.
  induction l as [|p l IH]; intros e r; cbn [foldR map concat]; [intros [= <-] H _; now rewrite app_nil_r|].
  destruct (merge_with false e p) as [x| | | |] eqn:E; try discriminate. intros H He Hl. inversion Hl; subst.
  destruct (merge_plain e p x E) as [X1 X2]; auto. destruct (IH x r H X2) as [Y1 Y2]; auto. split; [|exact Y2]. now rewrite Y1, X1, app_assoc.
Qed.
Lemma merges_parallel l : forall e r, foldR (fun acc p => merge_with false acc p) l e = Ok r -> parallel e -> Forall parallel l -> parallel r.
Proof.
  induction l as [|p l IH]; intros e r; cbn [foldR]; [intros [= <-]; auto|].
  destruct (merge_with false e p) as [x| | | |] eqn:E; try discriminate. intros H He Hl. inversion Hl; subst.
  apply (IH x r H); [|assumption]. apply (proj1 (parallel_flat x)). rewrite (merge_with_flat _ _ _ _ E). now apply parallel_append.
Qed.
Lemma into_parallel p ty wi ot e : into_encoding p ty wi ot = Ok e -> parallel e.
Proof.
  intros E. destruct (into_ok _ _ _ _ _ E) as (rows & m & _ & -> & _). repeat split; cbn; now rewrite !map_length.
Qed.
Lemma text_parallel ss si t ty wi ot s e : encode_text ss si t ty wi ot s = Ok e -> parallel e.
Proof.
  unfold encode_text, do_tokenize. destruct (extract_and_normalize ss si t s) as [p| | | |]; cbn [bind]; try discriminate.
  destruct (match tk_pre t with None => Ok p | Some f => f p end) as [p2| | | |]; cbn [bind]; try discriminate.
  destruct (pt_tokenize _ p2) as [p3| | | |]; cbn [bind]; try discriminate. apply into_parallel.
Qed.
Lemma words_parallel ss si t ty ot l : forall i es, encode_words ss si t ty ot i l = Ok es -> Forall parallel es.
Proof.
  induction l as [|s l IH]; intros i es; cbn [encode_words]; [intros [= <-]; constructor|].
  intros H. apply bind_Ok_inv in H as (e & He & H). apply bind_Ok_inv in H as (rest & Hr & H). injection H as <-.
  constructor; [eapply text_parallel, He|eapply IH, Hr].
Qed.
Lemma sequence_parallel ss si t ty ot x e : encode_sequence ss si t ty ot x = Ok e -> parallel e.
Proof.
  intros H. apply bind_Ok_inv in H as (l & Hl & H). unfold merge in H. eapply merges_parallel; [exact H|repeat split|].
  destruct x as [s|ws].
  - apply bind_Ok_inv in Hl as (e0 & He & Hl). injection Hl as <-. constructor; [eapply text_parallel, He|constructor].
  - eapply words_parallel, Hl.
Qed.

Lemma input_len_in l w : In w l -> zlen w <= input_len (Words l).
Proof. cbn. induction l as [|x l IH]; intros []; cbn [fold_right]; [subst; lia|specialize (IH H); lia]. Qed.
Lemma input_len_nonneg x : 0 <= input_len x.
Proof. destruct x as [s|l]; cbn; [unfold zlen; lia|]. induction l; cbn [fold_right]; [lia|unfold zlen in *; lia]. Qed.

Section Sequences.
  Variable sort_start sort_id : list io_pair -> list io_pair.
  Hypothesis HS : sorts start_key sort_start.
  Hypothesis HI : sorts id_key sort_id.

  Lemma raw_offsets t ty s e : components_ok t -> clean s -> encode_sequence sort_start sort_id t ty OByte (Raw s) = Ok e ->
    Forall (inside (zlen s)) (offsets e) /\ ordered (offsets e) /\ overflowing e = [].
  Proof.
    intros K C H. apply bind_Ok_inv in H as (l & Hl & H). apply bind_Ok_inv in Hl as (e0 & He & Hl). injection Hl as <-.
    destruct (text_offsets sort_start sort_id HS HI _ _ _ _ _ K C He) as (A1 & A2 & A3).
    unfold merge in H. destruct (merges_plain [e0] default_encoding e H eq_refl) as [B1 B2]; [repeat constructor; exact A3|].
    cbn [default_encoding offsets map concat app] in B1. rewrite app_nil_r in B1. rewrite B1. auto.
  Qed.

  Lemma words_offsets t ty l e : components_ok t -> Forall clean l -> encode_sequence sort_start sort_id t ty OByte (Words l) = Ok e ->
    (exists os, offsets e = concat os /\ Forall2 (fun w o => Forall (inside (zlen w)) o /\ ordered o) l os) /\ overflowing e = [].
  Proof.
    intros K C H. apply bind_Ok_inv in H as (es & Hl & H).
    assert (Q : Forall2 (fun w e => (Forall (inside (zlen w)) (offsets e) /\ ordered (offsets e)) /\ overflowing e = []) l es).
    { clear H. set (i0 := 0) in Hl. clearbody i0. revert i0 es Hl. induction C as [|s l Cs C IH]; intros i es; cbn [encode_words]; [intros [= <-]; constructor|].
      intros H. apply bind_Ok_inv in H as (e0 & He & H). apply bind_Ok_inv in H as (rest & Hr & H). injection H as <-.
      destruct (text_offsets sort_start sort_id HS HI _ _ _ _ _ K Cs He) as (A1 & A2 & A3). constructor; [auto|eapply IH, Hr]. }
    unfold merge in H. destruct (merges_plain es default_encoding e H eq_refl) as [B1 B2].
    { clear -Q. induction Q as [|w x l es [_ A] Q IH]; constructor; auto. }
    split; [|exact B2]. exists (map offsets es). split; [exact B1|]. clear -Q. induction Q as [|w x l es [A _] Q IH]; constructor; auto.
  Qed.

  Lemma sequence_inside t ty x e : components_ok t -> clean_input x -> encode_sequence sort_start sort_id t ty OByte x = Ok e ->
    all_offsets (inside (input_len x)) e.
  Proof.
    intros K C H. destruct x as [s|l].
    - destruct (raw_offsets _ _ _ _ K C H) as (A & _ & B). constructor; [exact A|rewrite B; constructor].
    - destruct (words_offsets _ _ _ _ K C H) as ((os & E & F) & B). constructor; [|rewrite B; constructor]. rewrite E.
      assert (I : forall w, In w l -> zlen w <= input_len (Words l)) by apply input_len_in.
      generalize dependent (input_len (Words l)). intros L I. clear -F I. induction F as [|w o l os [A _] F IH]; [constructor|]. cbn. apply Forall_app. split.
      + eapply Forall_impl; [|exact A]. unfold inside. intros p Hp. specialize (I w (or_introl eq_refl)). lia.
      + apply IH. intros w' Hw. apply I. now right.
  Qed.

  Lemma inside_trim L prefix i tok o : inside L o -> inside L (trim_offset prefix i tok o).
  Proof.
    unfold inside, trim_offset. assert (G : forall rs, 0 <= leading rs) by (induction rs as [|c rs IH]; cbn [leading]; [lia|destruct (c =? 288)%N; lia]). 
    pose proof (G (runes tok)) as G1. pose proof (G (rev (runes tok))) as G2. cbv zeta.
    set (lead := leading (runes tok)) in *. set (trail := leading (rev (runes tok))) in *. clearbody lead trail. intros (H1 & H2 & H3).
    set (ld := if ((i =? 0)%nat && prefix && (lead =? 1))%bool then 0 else lead). assert (Hld : 0 <= ld) by (subst ld; destruct (_ && _)%bool; lia). clearbody ld.
    cbn [fst snd].
    assert (H0 : fst o <= (if 0 <? lead then if snd o <? fst o + ld then snd o else fst o + ld else fst o) <= snd o).
    { destruct (0 <? lead); [|lia]. destruct (Z.ltb_spec (snd o) (fst o + ld)); lia. }
    set (o0 := if 0 <? lead then if snd o <? fst o + ld then snd o else fst o + ld else fst o) in *. clearbody o0.
    destruct ((0 <? trail) && (trail <=? snd o))%bool eqn:Et; [|lia]. destruct (Z.ltb_spec (snd o - trail) o0); lia.
  Qed.

  Lemma encode_inside t x add e : components_ok t -> clean_inputs x -> tk_encode sort_start sort_id t OByte x add = Ok (Some e) ->
    all_offsets (inside (inputs_len x)) e.
  Proof.
    intros K C. destruct x as [a|a b]; cbn [tk_encode inputs_len clean_inputs] in *; intros H.
    - apply bind_Ok_inv in H as (e0 & H0 & H). refine (post_process_keeps _ _ _ _ _ _ _ _ _ _ _ _ H).
      + unfold inside. cbn. pose proof (input_len_nonneg a). lia.
      + intros. now apply inside_trim.
      + eapply sequence_inside; eauto.
      + exact I.
    - destruct C as [Ca Cb]. apply bind_Ok_inv in H as (e0 & H0 & H). apply bind_Ok_inv in H as (p0 & H1 & H). refine (post_process_keeps _ _ _ _ _ _ _ _ _ _ _ _ H).
      + unfold inside. cbn. pose proof (input_len_nonneg a). lia.
      + intros. now apply inside_trim.
      + apply (all_offsets_mono (inside (input_len a))); [|exact (sequence_inside t 0 a e0 K Ca H0)]. unfold inside. intros o Ho. lia.
      + cbn. apply (all_offsets_mono (inside (input_len b))); [|exact (sequence_inside t 1 b p0 K Cb H1)]. unfold inside. intros o Ho. lia.
  Qed.
End Sequences.

(** ** Order after post-processing *)
Lemma ordered_filter f l : ordered l -> ordered (filter f l).
Proof.
  induction l as [|x l IH]; intros H; [apply ordered_nil|]. change (x :: l) with ([x] ++ l) in H. cbn [filter].
  destruct (f x); [|apply IH; eapply ordered_app_r, H]. change (x :: filter f l) with ([x] ++ filter f l).
  apply ordered_app; [apply (ordered_repeat x 1)|apply IH; eapply ordered_app_r, H|]. intros a b [<-|[]] Hb. apply filter_In in Hb as [Hb _].
  eapply ordered_in_app; [exact H|now left|exact Hb].
Qed.
Lemma ordered_window a n l : ordered l -> ordered (window a n l).
Proof.
  intros H. unfold window. rewrite <- (firstn_skipn a l) in H. apply ordered_app_r in H. rewrite <- (firstn_skipn n (skipn a l)) in H. eapply ordered_app_l, H.
Qed.
Lemma of_text_zeros n : filter of_text (repeat (0, 0) n) = [].
Proof. induction n; [reflexivity|exact IHn]. Qed.

Definition texts (e : Encoding) : list (Z * Z) := filter of_text (offsets e).

Lemma truncate_order e m s e' b : parallel e -> 0 <= s -> ordered (offsets e) -> overflowing e = [] -> truncate e m s = Ok (e', b) -> in_text_order e'.
Proof.
  intros P Hs O V H.
  assert (Same : e' = e -> in_text_order e') by (intros ->; split; [now apply ordered_filter|rewrite V; constructor]).
  destruct ((m <=? s) || (m =? 0)) eqn:E1; [apply Same; unfold truncate in H; rewrite E1 in H; congruence|].
  destruct (zlen (ids e) <=? m) eqn:E2; [apply Same; unfold truncate in H; rewrite E1, E2 in H; congruence|].
  destruct (truncate_long e (Z.to_nat m) (Z.to_nat s) P ltac:(lia) ltac:(unfold zlen in *; lia)) as (k & Ht & _).
  rewrite !Z2Nat.id in Ht by lia. rewrite H in Ht. injection Ht as -> _. split.
  - apply ordered_filter. cbn. rewrite <- (firstn_skipn (Z.to_nat m) (offsets e)) in O. eapply ordered_app_l, O.
  - cbn. apply Forall_map. apply Forall_forall. intros j _. apply ordered_filter. now apply ordered_window.
Qed.

Lemma pad1_texts e t a b c d e' : pad1 e t a b c d = Ok e' -> texts e' = texts e /\ overflowing e' = overflowing e.
Proof.
  unfold pad1, texts. destruct d.
  - destruct (_ <? 0); [discriminate|]. cbv zeta. destruct (_ <? _); [discriminate|]. intros [= <-]. cbn. now rewrite filter_app, of_text_zeros.
  - intros [= <-]. cbn. now rewrite filter_app, of_text_zeros, app_nil_r.
Qed.
Lemma pad_order e t a b c d e' : in_text_order e -> pad e t a b c d = Ok e' -> in_text_order e'.
Proof.
  intros [H1 H2] H. apply bind_Ok_inv in H as (over & Ho & H). apply mapR_Ok_Forall2 in Ho. cbv zeta in H.
  assert (K : Forall (fun o => ordered (filter of_text (offsets o))) over).
  { clear H H1. revert H2. induction Ho as [|x y l l' Hxy Ho IH]; intros H2; [constructor|]. inversion H2; subst. constructor; [|auto].
    destruct (pad1_texts _ _ _ _ _ _ _ Hxy) as [E _]. unfold texts in E. now rewrite E. }
  destruct (_ <=? _); [injection H as <-; split; assumption|]. destruct (pad1_texts _ _ _ _ _ _ _ H) as [E1 E2]. unfold texts in E1.
  split; [now rewrite E1|]. rewrite E2. exact K.
Qed.

(** Special tokens only. *)
Definition special_only (e : Encoding) : Prop := texts e = [] /\ overflowing e = [].
Lemma merge_texts e p r : merge_with false e p = Ok r -> texts r = texts e ++ texts p.
Proof.
  intros H. pose proof (merge_with_flat _ _ _ _ H) as F. unfold texts. change (offsets r) with (offsets (flat r)). rewrite F.
  cbn [offsets enc_append growth]. now rewrite shift0, filter_app.
Qed.
Lemma append_texts e p : texts (enc_append e p (growth false e)) = texts e ++ texts p.
Proof. unfold texts. cbn [offsets enc_append growth]. now rewrite shift0, filter_app. Qed.
Lemma flat_order l : Forall (fun o => ordered (filter of_text (offsets o))) (map flat l) <-> Forall (fun o => ordered (filter of_text (offsets o))) l.
Proof. rewrite Forall_map. split; intros H; eapply Forall_impl; try exact H; auto. Qed.
Lemma merge_special_l e p r : merge_with false e p = Ok r -> special_only e -> in_text_order p -> in_text_order r.
Proof.
  intros H [E1 E2] [P1 P2]. split.
  - change (filter of_text (offsets r)) with (texts r). rewrite (merge_texts _ _ _ H), E1. exact P1.
  - apply flat_order. rewrite (merge_with_overflow _ _ _ _ H). unfold over_spec. rewrite E2. cbn. apply Forall_map. eapply Forall_impl; [|exact P2].
    intros q Hq. change (ordered (texts (enc_append e q (growth false e)))). rewrite append_texts, E1. exact Hq.
Qed.
Lemma merge_special_r e p r : merge_with false e p = Ok r -> in_text_order e -> special_only p -> in_text_order r.
Proof.
  intros H [P1 P2] [E1 E2]. split.
  - change (filter of_text (offsets r)) with (texts r). rewrite (merge_texts _ _ _ H), E1, app_nil_r. exact P1.
  - apply flat_order. rewrite (merge_with_overflow _ _ _ _ H). unfold over_spec. rewrite E2. cbn [map]. rewrite app_nil_r. apply Forall_flat_map.
    eapply Forall_impl; [|exact P2]. intros q Hq. constructor; [|constructor].
    change (ordered (texts (enc_append q p (growth false q)))). rewrite append_texts, E1, app_nil_r. exact Hq.
Qed.
Lemma merge_special e p r : merge_with false e p = Ok r -> special_only e -> special_only p -> special_only r.
Proof.
  intros H [E1 E2] [P1 P2]. split; [now rewrite (merge_texts _ _ _ H), E1, P1|].
  pose proof (merge_with_overflow _ _ _ _ H) as O. unfold over_spec in O. rewrite E2, P2 in O. cbn in O. destruct (overflowing r); [reflexivity|discriminate].
Qed.
Lemma merges_specials l : forall e r, foldR (fun acc p => merge_with false acc p) l e = Ok r -> in_text_order e -> Forall special_only l -> in_text_order r.
Proof.
  induction l as [|p l IH]; intros e r; cbn [foldR]; [intros [= <-]; auto|].
  destruct (merge_with false e p) as [x| | | |] eqn:E; try discriminate. intros H He Hl. inversion Hl; subst. apply (IH x r H); [|assumption].
  eapply merge_special_r; eauto.
Qed.
Lemma merges_one l1 x l2 : forall e r, foldR (fun acc p => merge_with false acc p) (l1 ++ x :: l2) e = Ok r -> special_only e -> Forall special_only l1 ->
  in_text_order x -> Forall special_only l2 -> in_text_order r.
Proof.
  induction l1 as [|p l1 IH]; intros e r; cbn [app foldR].
  - destruct (merge_with false e x) as [y| | | |] eqn:E; try discriminate. intros H He _ Hx Hl. eapply merges_specials; [exact H| |exact Hl].
    eapply merge_special_l; eauto.
  - destruct (merge_with false e p) as [y| | | |] eqn:E; try discriminate. intros H He Hl1 Hx Hl. inversion Hl1; subst.
    apply (IH y r H); auto. eapply merge_special; eauto.
Qed.

Lemma with_range_order i e : in_text_order e -> in_text_order (with_range i e).
Proof.
  intros [H1 H2]. split; [|now rewrite with_range_over].
  change (offsets (with_range i e)) with (offsets (flat (with_range i e))). rewrite with_range_flat. exact H1.
Qed.
Lemma prepare_order i e e' : in_text_order e -> prepare i e = Ok e' -> in_text_order e'.
Proof.
  intros He H. apply bind_Ok_inv in H as (e1 & H1 & H). rewrite set_sequence_ids_ok in H1. injection H1 as <-.
  apply bind_Ok_inv in H as (over & Ho & H). apply (with_range_order i) in He. destruct He as [H1 H2].
  assert (K : in_text_order (set_overflowing (with_range i e) over)).
  { split; [exact H1|]. cbn. apply mapR_Ok_Forall2 in Ho. clear H H1. revert H2. induction Ho as [|x y l l' Hxy Ho IH]; intros H2; [constructor|].
    inversion H2; subst. rewrite set_sequence_ids_ok in Hxy. injection Hxy as <-. constructor; [|auto].
    change (offsets (with_range i x)) with (offsets (flat (with_range i x))). rewrite with_range_flat. assumption. }
  injection H as <-. destruct (0 <? _); exact K.
Qed.

Lemma template_order single both toks e add r : zlen (filter (fun x => match x with PSeq false _ => true | _ => false end) single) = 1 ->
  in_text_order e -> template_process single both toks e None add = Ok (Some r) -> in_text_order r.
Proof.
  intros U He H. apply bind_Ok_inv in H as (encs & H1 & H). apply bind_Ok_inv in H1 as (e1 & H1 & X). injection X as <-.
  apply prepare_order in H1; [|exact He]. apply bind_Ok_inv in H as (l & H2 & H). apply bind_Ok_inv in H2 as (ll & H2 & X). injection X as <-.
  apply mapR_Ok_Forall2 in H2.
  assert (Sp : forall tpl ll, Forall2 (fun a b => apply_piece toks [e1] add a = Ok b) tpl ll ->
    zlen (filter (fun x => match x with PSeq false _ => true | _ => false end) tpl) = 0 -> Forall special_only (concat ll)).
  { clear. induction 1 as [|p x tpl ll Hx F IH]; intros U; [constructor|]. cbn [filter concat] in *. destruct p as [[|] ty|id ty]; cbn [apply_piece] in Hx.
    - discriminate.
    - unfold zlen in U. cbn in U. lia.
    - apply Forall_app. split; [|now apply IH]. destruct add; [|injection Hx as <-; constructor].
      destruct (aget str_eqb id toks) as [[i t]|]; [|discriminate]. injection Hx as <-. constructor; [|constructor]. split; [|reflexivity]. unfold texts. cbn. apply of_text_zeros. }
  assert (K : exists l1 x l2, concat ll = l1 ++ x :: l2 /\ Forall special_only l1 /\ in_text_order x /\ Forall special_only l2).
  { clear H. revert U. induction H2 as [|p x tpl ll Hx F IH]; intros U; [discriminate|]. cbn [filter concat] in *. destruct p as [[|] ty|id ty]; cbn [apply_piece] in Hx.
    - discriminate.
    - apply bind_Ok_inv in Hx as (y & Hy & Hx). injection Hy as <-. apply bind_Ok_inv in Hx as (z & Hz & Hx). injection Hx as <-.
      rewrite set_sequence_ids_ok in Hz. injection Hz as <-. exists [], (with_range 0 (set_type_ids e1 (repeat ty (length (ids e1))))), (concat ll).
      split; [reflexivity|]. split; [constructor|]. split; [apply with_range_order; exact H1|]. apply (Sp _ _ F). unfold zlen in *. cbn [length] in U. lia.
    - destruct (IH U) as (l1 & y & l2 & E & A & B & C). exists (x ++ l1), y, l2. split; [now rewrite E, app_assoc|]. split; [|auto]. apply Forall_app. split; [|exact A].
      destruct add; [|injection Hx as <-; constructor]. destruct (aget str_eqb id toks) as [[i t]|]; [|discriminate]. injection Hx as <-. constructor; [|constructor]. split; [|reflexivity]. unfold texts. cbn. apply of_text_zeros. }
  destruct K as (l1 & x & l2 & E & A & B & C). rewrite E in H. unfold merge_encodings in H. destruct l1 as [|e0 l1]; cbn [app] in H.
  - apply bind_Ok_inv in H as (y & Hy & X). injection X as <-. eapply merges_specials; eauto.
  - inversion A; subst. apply bind_Ok_inv in H as (y & Hy & X). injection X as <-. eapply merges_one; eauto.
Qed.

Lemma process_order proc e add r : arranges_once (Some proc) -> in_text_order e -> process proc e None add = Ok (Some r) -> in_text_order r.
Proof.
  destruct proc as [cls sep|cls sep trim prefix|single both toks|prefix trim|l]; cbn [arranges_once]; intros U He; try contradiction; cbn [process].
  - intros H. apply bind_Ok_inv in H as (x & Hx & E). injection E as <-. unfold bert_process in Hx. destruct add; cbn [negb] in Hx.
    + cbn in Hx. injection Hx as <-. destruct He as [H1 H2]. split; cbn.
      * rewrite filter_app. cbn. now rewrite app_nil_r.
      * apply Forall_map. eapply Forall_impl; [|exact H2]. intros o Ho. cbn. rewrite filter_app. cbn. now rewrite app_nil_r.
    + injection Hx as <-. exact He.
  - intros H. eapply template_order; eauto.
  - subst trim. intros H. apply bind_Ok_inv in H as (x & Hx & E). injection E as <-. apply bind_Ok_inv in Hx as (encs & H1 & Hx).
    apply bind_Ok_inv in H1 as (e1 & H1 & X). injection X as <-. cbn in Hx. injection Hx as <-. eapply prepare_order; eauto.
Qed.

Lemma post_process_order proc trunc padding e add r : arranges_once proc -> (forall t, trunc = Some t -> 0 <= tr_stride t) ->
  parallel e -> ordered (offsets e) -> overflowing e = [] ->
  post_process proc trunc padding e None add = Ok (Some r) -> in_text_order r.
Proof.
  intros U Hs P O V H. apply bind_Ok_inv in H as ([e1 p1] & H1 & H).
  assert (K : in_text_order e1 /\ p1 = None).
  { unfold post_truncate in H1. assert (Same : in_text_order e) by (split; [now apply ordered_filter|rewrite V; constructor]).
    destruct trunc as [t|]; [|injection H1 as <- <-; auto]. specialize (Hs t eq_refl). unfold truncate_encodings in H1.
    set (m := if (add && (0 <? _))%bool then _ else _) in H1. clearbody m. destruct (m =? 0); [injection H1 as <- <-; auto|]. cbv zeta in H1.
    destruct (_ <? m); [injection H1 as <- <-; auto|]. destruct (tr_strategy t); [| |discriminate].
    - destruct (longest_first_loop _ _ _) as [n1 n2]. apply bind_Ok_inv in H1 as (x & Hx & H1). injection H1 as <- <-. apply bind_Ok_inv in Hx as ([y b] & Hy & Hx).
      injection Hx as <-. split; [|reflexivity]. eapply truncate_order; eauto.
    - destruct (_ <? enc_len e); [|discriminate]. apply bind_Ok_inv in H1 as (x & Hx & H1). injection H1 as <- <-. apply bind_Ok_inv in Hx as ([y b] & Hy & Hx).
      injection Hx as <-. split; [|reflexivity]. eapply truncate_order; eauto. }
  destruct K as [K1 ->]. cbn [fst snd] in H. apply bind_Ok_inv in H as (x & Hx & H).
  assert (Q : forall y, x = Some y -> in_text_order y).
  { intros y ->. destruct proc as [p|]; [eapply process_order; eauto|]. cbn in Hx. injection Hx as <-. exact K1. }
  destruct padding as [d|]; [|injection H as ->; auto]. destruct x as [x|]; [|discriminate].
  apply bind_Ok_inv in H as (l & Hl & H). unfold pad_encodings in Hl. cbv zeta in Hl. apply mapR_Ok_Forall2 in Hl. inversion Hl; subst.
  match goal with X : Forall2 _ [] _ |- _ => inversion X; subst end. injection H as <-.
  match goal with X : pad _ _ _ _ _ _ = Ok _ |- _ => exact (pad_order _ _ _ _ _ _ _ (Q _ eq_refl) X) end.
Qed.
