(** Proofs that ids and tokens of encodings belong together (C80). *)
From Verif Require Import Base BaseProofs EncodingModel EncodingSpec EncodingProofs BpeModel Utf8Model NormalizedModel NormalizedSpec AddedVocabModel AddedVocabSpec AddedFindProofs PreTokenizedModel ProcessorModel ProcessorProofs PipelineModel PipelineSpec PipelineProofs PreTokenizedSpec PreTokenizedProofs TokensSpec TokensProofs PreTokenizerModel PreTokenizerSpec PreTokenizerProofs NamesSpec.
Open Scope Z_scope.

Section Named.
  Variable R : Z -> str -> Prop.
  Notation named := (named R).

  Lemma named_inv e : named e -> Forall2 R (ids e) (tokens e) /\ Forall named (overflowing e).
  Proof. intros []; auto. Qed.

  Lemma Forall2_firstn {A B} (P : A -> B -> Prop) l l' n : Forall2 P l l' -> Forall2 P (firstn n l) (firstn n l').
  Proof. intros H. revert n. induction H; intros [|n]; cbn; constructor; auto. Qed.
  Lemma Forall2_skipn {A B} (P : A -> B -> Prop) l l' n : Forall2 P l l' -> Forall2 P (skipn n l) (skipn n l').
  Proof. intros H. revert n. induction H; intros [|n]; cbn; auto. Qed.
  Lemma Forall2_len {A B} (P : A -> B -> Prop) l l' : Forall2 P l l' -> length l = length l'.
  Proof. induction 1; cbn; congruence. Qed.
  Lemma Forall2_repeat {A B} (P : A -> B -> Prop) x y n : P x y -> Forall2 P (repeat x n) (repeat y n).
  Proof. intros H. induction n; cbn; constructor; auto. Qed.

  (** ** Merging *)
  Lemma merge_with_named g e : forall p r, named e -> named p -> merge_with g e p = Ok r -> named r.
  Proof.
    induction e as [e IHe] using Encoding_ind'.
    intros p; induction p as [p IHp] using Encoding_ind'; intros r He Hp H.
    pose proof (merge_with_flat _ _ _ _ H) as Hflat. rewrite merge_with_eq in H.
    apply bind_Ok_inv in H as (p1 & H1 & H). apply bind_Ok_inv in H as (p2 & H2 & H).
    apply merge_flat_inv in H as [Hov _].
    pose proof (named_inv _ He) as [He1 He2]. pose proof (named_inv _ Hp) as [Hp1 Hp2].
    constructor.
    - replace (ids r) with (ids e ++ ids p)%list by (symmetry; exact (f_equal ids Hflat)).
      replace (tokens r) with (tokens e ++ tokens p)%list by (symmetry; exact (f_equal tokens Hflat)). now apply Forall2_app.
    - rewrite Hov. apply Forall_app; split.
      + apply mapR_Ok_Forall2 in H1. clear -H1 He2 Hp Hp2 IHe.
        induction H1 as [|o m l l' Hom _ IH]; [constructor|].
        apply Forall_cons_iff in He2 as [Ho He2]. apply Forall_cons_iff in IHe as [IHo IHe]. cbn [concat]. apply Forall_app; split; [|now apply IH].
        apply bind_Ok_inv in Hom as (m0 & Hm0 & Hom). apply bind_Ok_inv in Hom as (ms & Hms & Hom). injection Hom as <-.
        constructor; [eauto|]. apply mapR_Ok_Forall2 in Hms. clear -Hms Ho IHo Hp2.
        induction Hms as [|q r l l' Hq _ IH]; [constructor|]. apply Forall_cons_iff in Hp2 as [Hq' Hp2]. constructor; eauto.
      + apply mapR_Ok_Forall2 in H2. clear -H2 He Hp2 IHp.
        induction H2 as [|q r l l' Hq _ IH]; [constructor|].
        apply Forall_cons_iff in Hp2 as [Hq' Hp2]. apply Forall_cons_iff in IHp as [IHq IHp]. constructor; eauto.
  Qed.
  Lemma merges_named g l : forall e r, named e -> Forall named l -> foldR (fun acc p => merge_with g acc p) l e = Ok r -> named r.
  Proof.
    induction l as [|p l IH]; intros e r He Hl H; cbn [foldR] in H; [injection H as <-; exact He|].
    apply bind_Ok_inv in H as (x & Hx & H). apply Forall_cons_iff in Hl as [Hp Hl]. eapply IH; [|exact Hl|exact H]. exact (merge_with_named _ _ _ _ He Hp Hx).
  Qed.

  (** ** Truncation *)
  Lemma part_named p q o o' size idx stride : Forall2 R p q -> Forall2 R o o' ->
    Forall2 R (get_current_part p o size idx stride) (get_current_part q o' size idx stride).
  Proof.
    intros H K. unfold get_current_part. pose proof (Forall2_len _ _ _ H) as L1. pose proof (Forall2_len _ _ _ K) as L2. unfold zlen. rewrite <- L1, <- L2.
    destruct (_ || _)%bool; [constructor|]. destruct (_ <=? _); [now apply Forall2_skipn|]. apply Forall2_app; [now apply Forall2_skipn|]. apply Forall2_firstn. now apply Forall2_skipn.
  Qed.
  Lemma windows_named fuel : forall prev o size k stride l, Forall2 R (ids prev) (tokens prev) -> Forall2 R (ids o) (tokens o) ->
    overflow_parts fuel prev o size k stride = Ok l -> Forall named l.
  Proof.
    induction fuel as [|fuel IH]; intros prev o size k stride l P O H; cbn [overflow_parts] in H; destruct (_ <? _); try discriminate H; try (injection H as <-; constructor).
    apply bind_Ok_inv in H as (ws & Hw & H). injection H as <-.
    match type of Hw with overflow_parts _ ?w _ _ _ _ = _ => assert (W : Forall2 R (ids w) (tokens w)) by (cbn [ids tokens]; now apply part_named) end.
    constructor; [constructor; [exact W|constructor]|]. eapply IH; [exact W|exact O|exact Hw].
  Qed.
  Lemma zslice_named (l : list Z) (l' : list str) a b x y : Forall2 R l l' -> zslice l a b = Ok x -> zslice l' a b = Ok y -> Forall2 R x y.
  Proof.
    intros H. unfold zslice. destruct (_ && _)%bool; [|discriminate]. destruct ((0 <=? a) && (a <=? b) && (b <=? zlen l'))%bool; [|discriminate]. intros E E'. injection E as <-. injection E' as <-.
    apply Forall2_firstn. now apply Forall2_skipn.
  Qed.
  Lemma truncate_named e m s r b : named e -> truncate e m s = Ok (r, b) -> named r.
  Proof.
    intros N. pose proof (named_inv _ N) as [N1 _]. unfold truncate. destruct (_ || _)%bool; [intros H; injection H as <- _; exact N|].
    destruct (_ <=? _); [intros H; injection H as <- _; exact N|]. intros H.
    apply bind_Ok_inv in H as (nI & HnI & H). apply bind_Ok_inv in H as (oI & HoI & H).
    apply bind_Ok_inv in H as (nTy & _ & H). apply bind_Ok_inv in H as (oTy & _ & H).
    apply bind_Ok_inv in H as (nT & HnT & H). apply bind_Ok_inv in H as (oT & HoT & H).
    do 8 (apply bind_Ok_inv in H as (? & _ & H)). apply bind_Ok_inv in H as (parts & Hp & H). injection H as <- _.
    assert (E : zlen (ids e) = zlen (tokens e)) by (unfold zlen; f_equal; exact (Forall2_len _ _ _ N1)). rewrite E in HoI.
    pose proof (zslice_named _ _ _ _ _ _ N1 HnI HnT) as M1. pose proof (zslice_named _ _ _ _ _ _ N1 HoI HoT) as M2.
    constructor; cbn [ids tokens overflowing]; [exact M1|]. eapply windows_named; [| |exact Hp]; cbn [ids tokens]; assumption.
  Qed.
  Lemma ignoring_named e m s r : named e -> truncate_ignoring_error e m s = Ok r -> named r.
  Proof. intros N H. apply bind_Ok_inv in H as ([x b] & H & E). injection E as <-. exact (truncate_named _ _ _ _ _ N H). Qed.
  Lemma truncates_named e pair st m s e' pair' : named e -> if_set named pair -> truncate_encodings e pair st m s = Ok (e', pair') -> named e' /\ if_set named pair'.
  Proof.
    intros N P. unfold truncate_encodings. destruct (m =? 0); [intros H; injection H as <- <-; auto|]. destruct (_ <? m); [intros H; injection H as <- <-; auto|]. destruct st.
    - destruct (longest_first_loop _ _ _) as [n1 n2]. intros H. apply bind_Ok_inv in H as (x & Hx & H). destruct pair as [p|].
      + apply bind_Ok_inv in H as (y & Hy & H). injection H as <- <-. split; [exact (ignoring_named _ _ _ _ N Hx)|]. intros z Hz. injection Hz as <-. exact (ignoring_named _ _ _ _ (P _ eq_refl) Hy).
      + injection H as <- <-. split; [exact (ignoring_named _ _ _ _ N Hx)|]. intros z Hz. discriminate Hz.
    - destruct (_ <? _); [|discriminate]. intros H. apply bind_Ok_inv in H as (x & Hx & H). injection H as <- <-. split; [exact (ignoring_named _ _ _ _ N Hx)|exact P].
    - destruct pair as [p|]; [|discriminate]. destruct (_ <? _); [|discriminate]. intros H. apply bind_Ok_inv in H as (x & Hx & H). injection H as <- <-. split; [exact N|].
      intros z Hz. injection Hz as <-. exact (ignoring_named _ _ _ _ (P _ eq_refl) Hx).
  Qed.

  (** ** Post-processors *)
  Lemma over_named e (f : Encoding -> Encoding) : (forall x, named x -> Forall2 R (ids (f x)) (tokens (f x)) /\ overflowing (f x) = []) -> named e ->
    named (set_overflowing (f e) (map f (overflowing e))).
  Proof.
    intros F N. pose proof (named_inv _ N) as [_ N2]. constructor; cbn [set_overflowing ids tokens overflowing]; [apply F; exact N|].
    apply Forall_map. refine (Forall_impl _ _ N2). intros x Nx. destruct (F x Nx) as [F1 F2]. constructor; [exact F1|]. rewrite F2. constructor.
  Qed.
  Lemma add_merge_named add padd e pair r : (forall x, named x -> Forall2 R (ids (add x)) (tokens (add x)) /\ overflowing (add x) = []) ->
    (forall x, named x -> Forall2 R (ids (padd x)) (tokens (padd x)) /\ overflowing (padd x) = []) -> named e -> if_set named pair -> add_and_merge add padd e pair = Ok r -> named r.
  Proof.
    intros F G N P. unfold add_and_merge. pose proof (over_named e add F N) as K. destruct pair as [p|].
    - intros H. eapply merge_with_named; [exact K| |exact H]. apply over_named; [exact G|exact (P _ eq_refl)].
    - intros H. injection H as <-. exact K.
  Qed.
  Lemma default_named e pair r : named e -> if_set named pair -> default_process e pair = Ok r -> named r.
  Proof. intros N P. destruct pair as [p|]; cbn [default_process]; [|intros H; injection H as <-; exact N]. intros H. eapply merge_with_named; [exact N|exact (P _ eq_refl)|exact H]. Qed.
  Lemma offsets_named b e r : named e -> process_offsets b e = Ok r -> named r.
  Proof. intros N H. apply bind_Ok_inv in H as (o & _ & H). injection H as <-. destruct (named_inv _ N). constructor; assumption. Qed.
  Lemma all_offsets_named b e r : named e -> process_all_offsets b e = Ok r -> named r.
  Proof.
    intros N H. apply bind_Ok_inv in H as (x & Hx & H). apply bind_Ok_inv in H as (l & Hl & H). injection H as <-. pose proof (offsets_named _ _ _ N Hx) as M.
    destruct (named_inv _ M) as [M1 M2]. constructor; cbn [set_overflowing ids tokens overflowing]; [exact M1|]. apply mapR_Ok_Forall2 in Hl. clear -M2 Hl.
    induction Hl as [|y z l l' Hy _ IH]; [constructor|]. apply Forall_cons_iff in M2 as [M M2]. constructor; [exact (offsets_named _ _ _ M Hy)|auto].
  Qed.
  Lemma set_ids_named e i r : named e -> set_sequence_ids e i = Ok r -> named r.
  Proof.
    intros N. unfold set_sequence_ids. destruct (0 <? enc_len e); [|intros H; injection H as <-; exact N]. intros H. apply bind_Ok_inv in H as (x & _ & H). injection H as <-.
    destruct (named_inv _ N). constructor; assumption.
  Qed.
  Lemma set_types_named e ty : named e -> named (set_type_ids e ty).
  Proof. intros N. destruct (named_inv _ N). constructor; assumption. Qed.
  Lemma prepare_named i e r : named e -> prepare i e = Ok r -> named r.
  Proof.
    intros N H. apply bind_Ok_inv in H as (x & Hx & H). apply bind_Ok_inv in H as (l & Hl & H). injection H as <-. pose proof (set_ids_named _ _ _ N Hx) as M.
    assert (K : named (set_overflowing x l)).
    { destruct (named_inv _ M) as [M1 M2]. constructor; cbn [set_overflowing ids tokens overflowing]; [exact M1|]. apply mapR_Ok_Forall2 in Hl. clear -M2 Hl.
      induction Hl as [|y z l l' Hy _ IH]; [constructor|]. apply Forall_cons_iff in M2 as [M M2]. constructor; [exact (set_ids_named _ _ _ M Hy)|auto]. }
    destruct (0 <? _); [now apply set_types_named|exact K].
  Qed.
  Lemma prepares_named e pair l : named e -> if_set named pair -> prepare_encodings e pair = Ok l -> Forall named l.
  Proof.
    intros N P H. apply bind_Ok_inv in H as (x & Hx & H). pose proof (prepare_named _ _ _ N Hx) as K. destruct pair as [p|].
    - apply bind_Ok_inv in H as (y & Hy & H). injection H as <-. constructor; [exact K|]. constructor; [exact (prepare_named _ _ _ (P _ eq_refl) Hy)|constructor].
    - injection H as <-. constructor; [exact K|constructor].
  Qed.
  Lemma piece_named toks encs add p l : (forall k is ts, In (k, (is, ts)) toks -> Forall2 R is ts) -> Forall named encs -> apply_piece toks encs add p = Ok l -> Forall named l.
  Proof.
    intros T N. destruct p as [b ty|id ty]; cbn [apply_piece]; intros H.
    - apply bind_Ok_inv in H as (x & Hx & H). apply bind_Ok_inv in H as (y & Hy & H). injection H as <-. constructor; [|constructor]. eapply set_ids_named; [|exact Hy].
      apply set_types_named. rewrite Forall_forall in N. apply N. unfold zindex in Hx. destruct (0 <=? _); [|discriminate Hx]. destruct (nth_error encs _) eqn:E; [|discriminate Hx]. injection Hx as <-. exact (nth_error_In _ _ E).
    - destruct add; [|injection H as <-; constructor]. destruct (aget str_eqb id toks) as [[i t]|] eqn:E; [|discriminate H]. injection H as <-. constructor; [|constructor].
      constructor; [|constructor]. cbn [new_encoding ids tokens]. assert (I : In (id, (i, t)) toks) by (apply (ag_in str_eqb str_eqb_eq _ _ _ E)). exact (T _ _ _ I).
  Qed.
  Lemma template_named toks single both e pair add r : (forall k is ts, In (k, (is, ts)) toks -> Forall2 R is ts) -> named e -> if_set named pair ->
    template_process single both toks e pair add = Ok (Some r) -> named r.
  Proof.
    intros T N P H. apply bind_Ok_inv in H as (encs & He & H). apply bind_Ok_inv in H as (l & Hl & H). pose proof (prepares_named _ _ _ N P He) as K.
    assert (L : Forall named l).
    { apply bind_Ok_inv in Hl as (ll & Hl & E). injection E as <-. apply mapR_Ok_Forall2 in Hl. clear -Hl K T. induction Hl as [|p x l l' Hp _ IH]; [constructor|]. cbn [concat].
      apply Forall_app. split; [exact (piece_named _ _ _ _ _ T K Hp)|exact IH]. }
    destruct l as [|x l]; [discriminate H|]. cbn [merge_encodings] in H. apply bind_Ok_inv in H as (y & Hy & H). injection H as <-. apply Forall_cons_iff in L as [L1 L]. exact (merges_named _ _ _ _ L1 L Hy).
  Qed.
  Lemma bytelevel_named b t e pair r : named e -> if_set named pair -> bytelevel_process b t e pair = Ok r -> named r.
  Proof.
    intros N P H. apply bind_Ok_inv in H as (encs & He & H). pose proof (prepares_named _ _ _ N P He) as K. apply bind_Ok_inv in H as (l & Hl & H).
    assert (L : Forall named l).
    { destruct t; [|injection Hl as <-; exact K]. apply mapR_Ok_Forall2 in Hl. clear -Hl K. induction Hl as [|y z l l' Hy _ IH]; [constructor|].
      apply Forall_cons_iff in K as [K1 K]. constructor; [exact (all_offsets_named _ _ _ K1 Hy)|auto]. }
    destruct l as [|x l]; [discriminate H|]. apply Forall_cons_iff in L as [L1 L]. exact (merges_named _ _ _ _ L1 L H).
  Qed.

  Lemma wrap1 (x y : Z) (a b : str) l l' : R x a -> R y b -> Forall2 R l l' -> Forall2 R (x :: l ++ [y]) (a :: l' ++ [b]).
  Proof. intros X Y L. constructor; [exact X|]. apply Forall2_app; [exact L|]. constructor; [exact Y|constructor]. Qed.

  Lemma process_named : forall p, specials_named R p -> forall e pair add r, named e -> if_set named pair -> process p e pair add = Ok (Some r) -> named r.
  Proof.
    fix IH 1. intros p S. destruct p as [c s|c s trim pre|single both toks|pre trim|l]; intros e pair add r N P H; cbn [process] in H.
    - apply bind_Ok_inv in H as (x & Hx & H). injection H as <-. destruct S as [Sc Ss]. unfold bert_process in Hx. destruct (negb add); [exact (default_named _ _ _ N P Hx)|].
      refine (add_merge_named _ _ _ _ _ _ _ N P Hx); intros x' Nx; destruct (named_inv _ Nx) as [N1 _]; (split; [|reflexivity]).
      + cbn [bert_add new_encoding ids tokens]. now apply wrap1.
      + cbn [bert_pair_add new_encoding ids tokens]. apply Forall2_app; [exact N1|]. constructor; [exact Ss|constructor].
    - destruct S as [Sc Ss]. unfold roberta_process in H. destruct trim; [|destruct (negb add); discriminate H].
      apply bind_Ok_inv in H as (e1 & He & H). apply bind_Ok_inv in H as (p1 & Hp & H). apply bind_Ok_inv in H as (x & Hx & H). injection H as <-.
      pose proof (all_offsets_named _ _ _ N He) as N'. assert (P' : if_set named p1).
      { destruct pair as [q|]; [|injection Hp as <-; intros z Hz; discriminate Hz]. apply bind_Ok_inv in Hp as (q1 & Hq & Hp). injection Hp as <-. intros z Hz. injection Hz as <-. exact (all_offsets_named _ _ _ (P _ eq_refl) Hq). }
      destruct (negb add); [exact (default_named _ _ _ N' P' Hx)|].
      refine (add_merge_named _ _ _ _ _ _ _ N' P' Hx); intros x' Nx; destruct (named_inv _ Nx) as [N1 _]; (split; [|reflexivity]).
      + cbn [roberta_add new_encoding ids tokens]. now apply wrap1.
      + cbn [roberta_pair_add new_encoding ids tokens]. now apply wrap1.
    - exact (template_named _ _ _ _ _ _ _ S N P H).
    - apply bind_Ok_inv in H as (x & Hx & H). injection H as <-. exact (bytelevel_named _ _ _ _ _ N P Hx).
    - revert S e N H. cbn [specials_named]. induction l as [|q l IHl]; intros S e N H; [injection H as <-; exact N|].
      cbn [fold_right] in S. destruct S as [Sq S]. apply bind_Ok_inv in H as (y & Hy & H). destruct y as [y|].
      + apply (IHl S y); [exact (IH q Sq _ _ _ _ N P Hy)|exact H].
      + destruct l; discriminate H.
  Qed.

  (** ** Padding *)
  Lemma pad1_named e n i ty s d r : R i s -> named e -> pad1 e n i ty s d = Ok r -> named r.
  Proof.
    intros K N. destruct (named_inv _ N) as [N1 N2]. unfold pad1. destruct d.
    - destruct (_ <? 0); [discriminate|]. destruct (_ <? _); [discriminate|]. intros H. injection H as <-. constructor; cbn [ids tokens overflowing]; [|exact N2]. apply Forall2_app; [now apply Forall2_repeat|exact N1].
    - intros H. injection H as <-. constructor; cbn [ids tokens overflowing]; [|exact N2]. apply Forall2_app; [exact N1|now apply Forall2_repeat].
  Qed.
  Lemma pad_named e n i ty s d r : R i s -> named e -> pad e n i ty s d = Ok r -> named r.
  Proof.
    intros K N H. apply bind_Ok_inv in H as (l & Hl & H). destruct (named_inv _ N) as [N1 N2].
    assert (M : named (set_overflowing e l)).
    { constructor; cbn [set_overflowing ids tokens overflowing]; [exact N1|]. apply mapR_Ok_Forall2 in Hl. clear -N2 Hl K.
      induction Hl as [|y z l l' Hy _ IH]; [constructor|]. apply Forall_cons_iff in N2 as [M N2]. constructor; [exact (pad1_named _ _ _ _ _ _ _ K M Hy)|auto]. }
    destruct (_ <=? _); [injection H as <-; exact M|]. exact (pad1_named _ _ _ _ _ _ _ K M H).
  Qed.

  Lemma post_named proc trunc padding e pair add r : if_set (specials_named R) proc -> if_set (padding_named R) padding -> named e -> if_set named pair ->
    post_process proc trunc padding e pair add = Ok (Some r) -> named r.
  Proof.
    intros Sp Pd N P H. apply bind_Ok_inv in H as ([e1 p1] & Ht & H). cbn [fst snd] in H.
    assert (N1 : named e1 /\ if_set named p1).
    { unfold post_truncate in Ht. destruct trunc as [t|]; [exact (truncates_named _ _ _ _ _ _ _ N P Ht)|]. injection Ht as <- <-. auto. }
    destruct N1 as [N1 P1]. apply bind_Ok_inv in H as (x & Hx & H).
    assert (K : forall y, x = Some y -> named y).
    { intros y ->. destruct proc as [q|]; [exact (process_named q (Sp _ eq_refl) _ _ _ _ N1 P1 Hx)|]. apply bind_Ok_inv in Hx as (z & Hz & Hx). injection Hx as <-. exact (default_named _ _ _ N1 P1 Hz). }
    destruct padding as [d|]; [|injection H as ->; exact (K _ eq_refl)]. destruct x as [x|]; [|discriminate H]. apply bind_Ok_inv in H as (l & Hl & H).
    unfold pad_encodings in Hl. apply mapR_Ok_Forall2 in Hl. destruct l as [|y [|? ?]]; try discriminate H. injection H as ->.
    inversion Hl as [|? ? ? ? Hy _]; subst. exact (pad_named _ _ _ _ _ _ _ (Pd _ eq_refl) (K _ eq_refl) Hy).
  Qed.

  (** ** Pieces and their tokens *)
  Definition toks_named (sp : split) : Prop := forall toks, sp_toks sp = Some toks -> Forall (fun t => R (t_id t) (t_value t)) toks.

  Lemma slice_text n a b m : 0 <= a -> b <= zlen (ns_norm n) -> ns_slice n (Rng a b OnNormalized) = Ok (Some m) -> ns_norm m = part a b (ns_norm n).
  Proof.
    intros Ha Hb H. unfold ns_slice in H. apply bind_Ok_inv in H as (fr & Hf & H). destruct fr as [full|]; [|discriminate H].
    assert (E : full = Rng a b OnNormalized).
    { unfold validate_range, into_full_range in Hf. cbn [r_on r_start r_end] in Hf. replace (a =? -1) with false in Hf by (symmetry; apply Z.eqb_neq; lia).
      replace (zlen (ns_norm n) <? b) with false in Hf by (symmetry; apply Z.ltb_ge; lia). destruct (_ || _)%bool; [discriminate Hf|]. destruct (_ && _)%bool; [congruence|].
      apply bind_Ok_inv in Hf as (o1 & _ & Hf). destruct (negb o1); [discriminate Hf|]. apply bind_Ok_inv in Hf as (o2 & _ & Hf). destruct (negb o2); [discriminate Hf|]. congruence. }
    subst full. apply bind_Ok_inv in H as (conv & Hc & H). destruct conv as [c|]; [|discriminate H]. cbn [r_on r_start r_end] in H.
    apply bind_Ok_inv in H as (pre & _ & H). apply bind_Ok_inv in H as (so & _ & H). apply bind_Ok_inv in H as (sn & Hs & H). apply bind_Ok_inv in H as (al & _ & H).
    apply bind_Ok_inv in H as (ao & _ & H). injection H as <-. cbn [ns_norm]. unfold ns_range, into_full_range in Hs. cbn [r_on r_start r_end] in Hs.
    replace (a =? -1) with false in Hs by (symmetry; apply Z.eqb_neq; lia). replace (zlen (ns_norm n) <? b) with false in Hs by (symmetry; apply Z.ltb_ge; lia).
    unfold zslice in Hs. destruct (_ && _)%bool; [|discriminate Hs]. injection Hs as <-. reflexivity.
  Qed.

  Section Sorts.
    Variable ss si : list io_pair -> list io_pair.
    Hypothesis HS : sorts start_key ss.
    Hypothesis HI : sorts id_key si.

    Lemma indices_named set n l : found_named R set -> split_with_indices ss si set n = Ok l -> Forall toks_named l.
    Proof.
      intros F H. unfold split_with_indices in H. apply mapR_Ok_Forall2 in H.
      assert (K : forall t r, In (Some t, r) (AddedVocabModel.find_matches ss si (zlen (ns_norm n)) (mt_ids set) (mt_find set (ns_norm n))) ->
        0 <= fst r /\ snd r <= zlen (ns_norm n) /\ R t (part (fst r) (snd r) (ns_norm n))).
      { intros t [a b] I. destruct (find_labelled ss si HS HI _ _ _ _ _ I) as (k & (l0 & Ek & Il) & ->). destruct (F _ _ _ _ _ Ek Il) as (Ha & Hb & i & Ei & Ri).
        split; [exact Ha|]. split; [exact Hb|]. now rewrite (nth_error_nth _ _ _ Ei). }
      revert K. generalize dependent l. generalize (AddedVocabModel.find_matches ss si (zlen (ns_norm n)) (mt_ids set) (mt_find set (ns_norm n))) as L.
      intros L l H K. induction H as [|[o [a b]] sp L l Hx _ IH]; [constructor|]. constructor; [|apply IH; intros t r I; apply K; right; exact I].
      unfold indexed_piece in Hx. cbn [fst snd] in Hx. apply bind_Ok_inv in Hx as (m & Hm & Hx). destruct m as [m|]; [|discriminate Hx]. injection Hx as <-.
      intros toks E. cbn [sp_toks] in E. destruct o as [t|]; [|discriminate E]. injection E as <-. destruct (K t (a, b) (or_introl eq_refl)) as (Ha & Hb & Rt). cbn [fst snd] in *.
      constructor; [|constructor]. cbn [t_id t_value]. rewrite (slice_text _ _ _ _ Ha Hb Hm). exact Rt.
    Qed.

    Lemma split_named f p p' : (forall i n l, f i n = Ok l -> Forall toks_named l) -> Forall toks_named (pt_splits p) -> pt_split f p = Ok p' -> Forall toks_named (pt_splits p').
    Proof.
      intros F N H. apply bind_Ok_inv in H as (l & Hl & H). injection H as <-. cbn [pt_splits]. destruct (split_pieces_news _ _ _ _ Hl) as (news & -> & K). clear Hl.
      induction K as [|sp new l0 news Hn _ IH]; [constructor|]. apply Forall_cons_iff in N as [N1 N]. cbn [concat]. apply Forall_app. split; [|now apply IH].
      destruct (sp_toks sp); [subst; constructor; [exact N1|constructor]|]. destruct Hn as (i & new0 & E & ->). specialize (F _ _ _ E). clear -F.
      induction F as [|x l Hx F IHF]; [constructor|]. cbn [filter]. destruct (nonempty x); [constructor; assumption|exact IHF].
    Qed.

    Lemma extract_named t s p : found_named R (tk_raw t) -> found_named R (tk_normalized t) -> extract_and_normalize ss si t s = Ok p -> Forall toks_named (pt_splits p).
    Proof.
      intros F1 F2 H. apply bind_Ok_inv in H as (p1 & H1 & H). refine (split_named _ _ _ _ _ H).
      - intros i n l E. apply bind_Ok_inv in E as (m & _ & E). exact (indices_named _ _ _ F2 E).
      - refine (split_named _ _ _ _ _ H1); [intros i n l E; exact (indices_named _ _ _ F1 E)|]. constructor; [intros toks E; discriminate E|constructor].
    Qed.

    Lemma text_named t ty wi ot s e : parts_named R t -> encode_text ss si t ty wi ot s = Ok e -> named e.
    Proof.
      intros (F1 & F2 & Pr & Mo & _) H. destruct (text_stages _ _ _ _ _ _ _ _ H) as (p & p' & toks & Hp & Hp' & F & (R1 & R2 & _ & _ & _ & R6) & _).
      pose proof (extract_named _ _ _ F1 F2 Hp) as N. constructor; [|rewrite R6; constructor]. rewrite R1, R2.
      assert (N' : Forall toks_named (pt_splits p')).
      { destruct (tk_pre t) as [f|]; [|subst; exact N]. apply Forall_forall. intros sp I toks0 E. destruct (Pr f eq_refl _ _ Hp' _ _ I E) as (sp' & I' & E'). rewrite Forall_forall in N. exact (N _ I' _ E'). }
      assert (K : Forall (fun t => R (t_id t) (t_value t)) (concat toks)).
      { clear -F N' Mo. induction F as [|sp ts l toks [_ X] F IH]; [constructor|]. apply Forall_cons_iff in N' as [N1 N]. cbn [concat]. apply Forall_app. split; [|now apply IH].
        destruct (sp_toks sp) as [ts'|] eqn:E; [subst; exact (N1 _ E)|]. destruct X as (f & Hf & X). exact (Mo f Hf _ _ X). }
      clear -K. induction K; cbn [map]; constructor; auto.
    Qed.
    Lemma sequence_named t ty ot x e : parts_named R t -> encode_sequence ss si t ty ot x = Ok e -> named e.
    Proof.
      intros P H. apply bind_Ok_inv in H as (l & Hl & H). unfold merge in H. refine (merges_named _ _ _ _ _ _ H); [constructor; constructor|]. destruct x as [s|ws].
      - apply bind_Ok_inv in Hl as (e0 & He & Hl). injection Hl as <-. constructor; [exact (text_named _ _ _ _ _ _ P He)|constructor].
      - clear H. revert l Hl. generalize 0 as i. induction ws as [|w ws IH]; intros i l Hl; cbn [encode_words] in Hl; [injection Hl as <-; constructor|].
        apply bind_Ok_inv in Hl as (e0 & He & Hl). apply bind_Ok_inv in Hl as (rest & Hr & Hl). injection Hl as <-. constructor; [exact (text_named _ _ _ _ _ _ P He)|exact (IH _ _ Hr)].
    Qed.
    Lemma encode_named t ot x add e : parts_named R t -> tk_encode ss si t ot x add = Ok (Some e) -> named e.
    Proof.
      intros P H. pose proof P as (_ & _ & _ & _ & Sp & Pd). destruct x as [a|a b]; cbn [tk_encode] in H.
      - apply bind_Ok_inv in H as (e1 & H1 & H). refine (post_named _ _ _ _ _ _ _ Sp Pd (sequence_named _ _ _ _ _ P H1) _ H). intros y Hy. discriminate Hy.
      - apply bind_Ok_inv in H as (e1 & H1 & H). apply bind_Ok_inv in H as (e2 & H2 & H). refine (post_named _ _ _ _ _ _ _ Sp Pd (sequence_named _ _ _ _ _ P H1) _ H).
        intros y Hy. injection Hy as <-. exact (sequence_named _ _ _ _ _ P H2).
    Qed.
  End Sorts.
End Named.

(** ** Pre-tokenizers *)
Lemma split_adds_none f : (forall i n l, f i n = Ok l -> Forall (fun sp => sp_toks sp = None) l) -> adds_no_tokens (pt_split f).
Proof.
  intros F p p' H sp toks I E. apply bind_Ok_inv in H as (l & Hl & H). injection H as <-. cbn [pt_splits] in I. destruct (split_pieces_news _ _ _ _ Hl) as (news & -> & K). clear Hl.
  induction K as [|sp0 new l0 news Hn _ IH]; [destruct I|]. cbn [concat] in I. apply in_app_iff in I as [I|I].
  - destruct (sp_toks sp0) eqn:E0.
    + subst new. destruct I as [<-|[]]. exists sp0. split; [left; reflexivity|congruence].
    + destruct Hn as (i & new0 & En & ->). apply filter_In in I as [I _]. specialize (F _ _ _ En). rewrite Forall_forall in F. rewrite (F _ I) in E. discriminate E.
  - destruct (IH I) as (sp' & I' & E'). exists sp'. split; [right; exact I'|exact E'].
Qed.
Lemma untokenized_none ps : Forall (fun sp => sp_toks sp = None) (untokenized ps).
Proof. unfold untokenized. apply Forall_map. apply Forall_forall. reflexivity. Qed.
Lemma split_by_none p b i n l : split_by p b i n = Ok l -> Forall (fun sp => sp_toks sp = None) l.
Proof. intros H. apply bind_Ok_inv in H as (ps & _ & H). injection H as <-. apply untokenized_none. Qed.
Lemma pre_adds_none u t : adds_no_tokens (pre_tokenize u t).
Proof.
  induction t as [t N|ts IH] using pre_tokenizer_ind'.
  - destruct t; cbn [pre_tokenize]; try (apply split_adds_none; intros i n l H; exact (split_by_none _ _ _ _ _ H)).
    + apply split_adds_none. intros i n l H. apply bind_Ok_inv in H as (x & _ & H). apply bind_Ok_inv in H as (y & _ & H). injection H as <-. apply untokenized_none.
    + apply split_adds_none. intros i n l H. apply bind_Ok_inv in H as (x & _ & H). injection H as <-. apply untokenized_none.
    + apply split_adds_none. intros i n l H. apply bind_Ok_inv in H as (x & _ & H). apply bind_Ok_inv in H as (y & _ & H). exact (split_by_none _ _ _ _ _ H).
    + intros p p' H sp toks I E. pose proof (bytes_plain u prefix p p' H) as K. rewrite Forall_forall in K. rewrite (K _ I) in E. discriminate E.
    + exfalso. now apply (N ts).
  - induction ts as [|t ts IHt]; intros p p' E sp toks I K; cbn in E.
    + injection E as <-. eauto.
    + apply Forall_cons_iff in IH as [I1 I2]. apply bind_Ok_inv in E as (q & Eq & E). destruct (IHt I2 _ _ E _ _ I K) as (sp' & I' & K'). exact (I1 _ _ Eq _ _ I' K').
Qed.
