(** The tokens that decoding takes from a processed encoding (C72). *)
From Verif Require Import Base BaseProofs Utf8Model EncodingModel EncodingSpec EncodingProofs BpeModel AddedVocabModel ProcessorModel ProcessorSpec ProcessorProofs PipelineModel PipelineSpec RoundTripSpec.
Open Scope Z_scope.

Lemma processor_cases (P : processor -> Prop) : (forall p, (forall l, p <> PSequence l) -> P p) -> (forall l, Forall P l -> P (PSequence l)) -> forall p, P p.
Proof.
  intros H1 H2. fix IH 1. intros [| | | |l]; [apply H1; discriminate..|]. apply H2. induction l as [|q l IHl]; constructor; [apply IH|exact IHl].
Qed.

Section End.
  Variables (m : base_model) (av : added_vocab) (skip : bool).
  Local Notation name := (shown m av skip).
  Local Notation seen := (shown_all m av skip).

  Lemma seen_app a b : seen (a ++ b) = seen a ++ seen b.
  Proof. apply flat_map_app. Qed.
  Lemma seen_hidden l : Forall (fun i => name i = None) l -> seen l = [].
  Proof. unfold shown_all. induction 1 as [|i l H F IH]; [reflexivity|]. cbn [flat_map]. now rewrite H, IH. Qed.
  Lemma seen_one i : name i = None -> seen [i] = [].
  Proof. intros H. apply seen_hidden. constructor; [exact H|constructor]. Qed.
  Lemma seen_cons i l : name i = None -> seen (i :: l) = seen l.
  Proof. intros H. change (i :: l) with ([i] ++ l). now rewrite seen_app, seen_one. Qed.

  Lemma merge_ids g e p r : merge_with g e p = Ok r -> ids r = ids e ++ ids p.
  Proof. intros H. apply merge_with_flat in H. apply (f_equal ids) in H. exact H. Qed.
  Lemma merges_ids l : forall e r, foldR (fun acc p => merge_with false acc p) l e = Ok r -> ids r = ids e ++ concat (map ids l).
  Proof.
    induction l as [|p l IH]; intros e r H; cbn [foldR] in H; [injection H as <-; cbn; now rewrite app_nil_r|].
    destruct (merge_with false e p) as [x| | | |] eqn:E; try discriminate. rewrite (IH x r H), (merge_ids _ _ _ _ E), <- app_assoc. reflexivity.
  Qed.
  Definition pair_ids (pair : option Encoding) : list Z := match pair with Some p => ids p | None => [] end.
  Lemma default_ids e pair r : default_process e pair = Ok r -> ids r = ids e ++ pair_ids pair.
  Proof. destruct pair as [p|]; cbn; intros H; [now apply merge_ids in H|]. injection H as <-. now rewrite app_nil_r. Qed.
  Lemma offsets_ids prefix e r : process_all_offsets prefix e = Ok r -> ids r = ids e.
  Proof.
    intros H. unfold process_all_offsets in H. apply bind_Ok_inv in H as (e1 & H1 & H). apply bind_Ok_inv in H as (over & _ & H). injection H as <-.
    unfold process_offsets in H1. apply bind_Ok_inv in H1 as (o & _ & H1). injection H1 as <-. reflexivity.
  Qed.
  Lemma prepared_ids i e : ids (prepared i e) = ids e.
  Proof. unfold prepared. destruct (0 <? enc_len e); cbn; apply with_range_ids. Qed.
  Lemma add_merge_seen (f g : Encoding -> Encoding) e pair r : (forall x, seen (ids (f x)) = seen (ids x)) -> (forall x, seen (ids (g x)) = seen (ids x)) ->
    add_and_merge f g e pair = Ok r -> seen (ids r) = seen (ids e) ++ seen (pair_ids pair).
  Proof.
    intros Hf Hg H. unfold add_and_merge in H. destruct pair as [p|]; cbn [pair_ids].
    - apply merge_ids in H. rewrite H, seen_app. cbn [ids set_overflowing]. now rewrite Hf, Hg.
    - injection H as <-. cbn [ids set_overflowing]. rewrite Hf. cbn. now rewrite app_nil_r.
  Qed.

  Lemma pieces_seen toks e pair add : (add = true -> forall id l, aget str_eqb id toks = Some l -> Forall (fun i => name i = None) (fst l)) ->
    forall tpl l, mapR (apply_piece toks (prepared 0 e :: match pair with Some p => [prepared 1 p] | None => [] end) add) tpl = Ok l ->
    seen (concat (map ids (concat l))) = concat (map (fun b : bool => if b then seen (pair_ids pair) else seen (ids e)) (template_uses tpl)).
  Proof.
    intros Hh. induction tpl as [|q tpl IH]; intros l H; [injection H as <-; reflexivity|].
    cbn [mapR] in H. apply bind_Ok_inv in H as (x & Hx & H). apply bind_Ok_inv in H as (l' & Hl & H). injection H as <-.
    cbn [concat]. rewrite map_app, concat_app, seen_app, (IH _ Hl). clear IH Hl. unfold template_uses. cbn [flat_map]. rewrite map_app, concat_app. f_equal.
    destruct q as [b ty|id ty]; cbn [apply_piece] in Hx.
    - apply bind_Ok_inv in Hx as (e1 & H1 & Hx). rewrite set_sequence_ids_ok in Hx. cbn [bind] in Hx. injection Hx as <-. cbn [map concat]. rewrite with_range_ids. cbn [ids set_type_ids]. rewrite !app_nil_r.
      destruct b; cbn in H1.
      + destruct pair as [p|]; [|discriminate]. injection H1 as <-. now rewrite prepared_ids.
      + injection H1 as <-. now rewrite prepared_ids.
    - destruct add; [|injection Hx as <-; reflexivity]. destruct (aget str_eqb id toks) as [[i tk]|] eqn:Ea; [|discriminate]. injection Hx as <-. cbn [map concat ids new_encoding]. rewrite app_nil_r.
      apply seen_hidden. exact (Hh eq_refl id _ Ea).
  Qed.

  Lemma process_seen pair add : forall p, hides name (match pair with Some _ => true | None => false end) add p -> forall e r, process p e pair add = Ok (Some r) ->
    seen (ids r) = seen (ids e) ++ seen (pair_ids pair).
  Proof.
    induction p as [p Np|l IH] using processor_cases; intros Hh e r H; [destruct p as [cls sep|cls sep trim prefix|single both toks|prefix trim|l]; [..|now destruct (Np l)]|]; cbn [process hides] in *.
    - apply bind_Ok_inv in H as (x & H & Hr). injection Hr as <-. unfold bert_process in H. destruct add; cbn [negb] in H; [|now rewrite (default_ids _ _ _ H), seen_app].
      destruct (Hh eq_refl) as [A B]. refine (add_merge_seen _ _ _ _ _ _ _ H); intros y; cbn [ids bert_add bert_pair_add new_encoding]; rewrite ?(seen_cons _ _ A), seen_app, (seen_one _ B), app_nil_r; reflexivity.
    - unfold roberta_process in H. destruct trim; [|destruct (negb add); discriminate]. apply bind_Ok_inv in H as (e1 & H1 & H). apply bind_Ok_inv in H as (p1 & H2 & H). apply bind_Ok_inv in H as (x & H & Hr). injection Hr as <-.
      rewrite <- (offsets_ids _ _ _ H1). assert (Ep : pair_ids p1 = pair_ids pair).
      { destruct pair as [p|]; [|injection H2 as <-; reflexivity]. apply bind_Ok_inv in H2 as (y & H2 & Hy). injection Hy as <-. exact (offsets_ids _ _ _ H2). }
      rewrite <- Ep. destruct add; cbn [negb] in H; [|now rewrite (default_ids _ _ _ H), seen_app].
      destruct (Hh eq_refl) as [A B]. refine (add_merge_seen _ _ _ _ _ _ _ H); intros y; cbn [ids roberta_add roberta_pair_add new_encoding]; rewrite ?(seen_cons _ _ A), ?(seen_cons _ _ B), seen_app, (seen_one _ B), app_nil_r; reflexivity.
    - unfold template_process in H. rewrite prepare_encodings_ok in H. cbn [bind] in H. apply bind_Ok_inv in H as (l & H1 & H). unfold apply_template in H1. apply bind_Ok_inv in H1 as (ls & H1 & H2). injection H2 as <-.
      destruct Hh as [Hu Hh]. pose proof (pieces_seen toks e pair add Hh _ _ H1) as S1. unfold merge_encodings in H. destruct (concat ls) as [|x l]; [discriminate|]. apply bind_Ok_inv in H as (y & H & Hy). injection Hy as <-.
      rewrite (merges_ids _ _ _ H). cbn [map concat] in S1. rewrite S1. destruct pair as [p|]; cbn in Hu |- *; rewrite Hu; cbn; now rewrite ?app_nil_r.
    - apply bind_Ok_inv in H as (x & H & Hr). injection Hr as <-. unfold bytelevel_process in H. rewrite prepare_encodings_ok in H. cbn [bind] in H. apply bind_Ok_inv in H as (encs & H1 & H).
      assert (Ei : map ids encs = ids e :: match pair with Some p => [ids p] | None => [] end).
      { destruct trim; [|injection H1 as <-; cbn [map]; rewrite prepared_ids; f_equal; destruct pair; [cbn; now rewrite prepared_ids|reflexivity]].
        apply mapR_Ok_Forall2 in H1. inversion H1 as [|? y ? l' Y1 Y2]; subst. cbn [map]. rewrite (offsets_ids _ _ _ Y1), prepared_ids. f_equal. destruct pair as [p|].
        - inversion Y2 as [|? z ? l2 Z1 Z2]; subst. inversion Z2; subst. cbn [map]. now rewrite (offsets_ids _ _ _ Z1), prepared_ids.
        - inversion Y2; reflexivity. }
      destruct encs as [|y l]; [discriminate|]. cbn [map] in Ei. injection Ei as E1 E2. rewrite (merges_ids _ _ _ H), seen_app, E1, E2. f_equal. destruct pair; cbn; now rewrite ?app_nil_r.
    - destruct Hh as [Hp Hh]. destruct pair as [q|]; [discriminate|]. cbn [pair_ids]. change (seen []) with (@nil str). rewrite app_nil_r.
      change ((fix go (l : list processor) (e : option Encoding) : res (option Encoding) :=
         match l with
         | [] => Ok e
         | q :: l' => match e with None => Panic | Some e => do r <- process q e None add; go l' r end
         end) l (Some e) = Ok (Some r)) in H.
      revert e H Hh. induction IH as [|q l IH _ IHl]; intros e H Hh; [injection H as <-; reflexivity|]. destruct Hh as [H1 H2]. apply bind_Ok_inv in H as (x & Hx & H). destruct x as [x|].
      + rewrite (IHl x H H2). rewrite (IH H1 e x Hx). cbn [pair_ids]. apply app_nil_r.
      + destruct l; discriminate.
  Qed.

  Lemma pad_seen d r x : name (pd_id d) = None -> pad_encodings [r] (pd_strategy d) (pd_dir d) (pd_id d) (pd_type d) (pd_token d) = Ok [x] -> seen (ids x) = seen (ids r).
  Proof.
    intros Hd H. unfold pad_encodings in H. cbn [mapR] in H. apply bind_Ok_inv in H as (y & H & Hy). injection Hy as <-. unfold pad in H. apply bind_Ok_inv in H as (over & _ & H).
    destruct (_ <=? _); [injection H as <-; reflexivity|]. unfold pad1 in H.
    assert (Hr : forall n, seen (repeat (pd_id d) n) = []) by (intros n; apply seen_hidden, Forall_forall; intros i Hi; apply repeat_spec in Hi; now subst).
    destruct (pd_dir d).
    - destruct (_ <? 0); [discriminate|]. destruct (_ <? zlen _); [discriminate|]. injection H as <-. cbn [ids set_overflowing]. rewrite seen_app, Hr. reflexivity.
    - injection H as <-. cbn [ids set_overflowing]. rewrite seen_app, Hr. apply app_nil_r.
  Qed.

  Lemma post_seen t e pair add r : ending_hides name t (match pair with Some _ => true | None => false end) add ->
    post_process (tk_processor t) (tk_trunc t) (tk_padding t) e pair add = Ok (Some r) -> seen (ids r) = seen (ids e) ++ seen (pair_ids pair).
  Proof.
    intros (Hp & Ht & Hd) H. unfold post_process in H. rewrite Ht in H. cbn [post_truncate bind fst snd] in H. apply bind_Ok_inv in H as (x & Hx & H).
    assert (X : forall y, x = Some y -> seen (ids y) = seen (ids e) ++ seen (pair_ids pair)).
    { intros y ->. destruct (tk_processor t) as [p|]; [exact (process_seen pair add p Hp e y Hx)|]. apply bind_Ok_inv in Hx as (z & Hx & Hz). injection Hz as <-. now rewrite (default_ids _ _ _ Hx), seen_app. }
    destruct (tk_padding t) as [d|]; [|injection H as ->; now apply X]. destruct x as [y|]; [|discriminate]. apply bind_Ok_inv in H as (l & Hl & H). destruct l as [|z [|? ?]]; try discriminate. injection H as ->.
    rewrite (pad_seen d y r Hd Hl). now apply X.
  Qed.
End End.
