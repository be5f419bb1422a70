(** Texts with added tokens in them (C84). *)
From Verif Require Import Base BaseProofs Utf8Model Utf8Proofs NormalizedModel NormalizedSpec NormalizedProofs EncodingModel EncodingSpec EncodingProofs BpeModel AddedVocabModel AddedVocabSpec AddedFindProofs AddedPatternModel AddedPatternSpec AddedPatternProofs
  PreTokenizedModel PreTokenizedSpec PreTokenizedProofs PreTokenizerModel PreTokenizerSpec PreTokenizerProofs PipelineModel PipelineSpec PipelineProofs TokensSpec TokensProofs ReturnSpec ReturnProofs WordsProofs TurnedProofs LoadedWordsProofs
  RoundTripSpec RoundTripProofs ItemsSpec ItemsProofs MaskedProofs.
Open Scope Z_scope.

Section Sorted.
  Variable ss si : list io_pair -> list io_pair.
  Hypothesis HS : sorts start_key ss.
  Hypothesis HI : sorts id_key si.

  Lemma parts_agree t f L s : tk_normalizer t = Some f -> matching_ok (tk_raw t) -> clean s -> s <> [] ->
    (forall w, In (None, w) (cut_added ss si (tk_raw t) s) -> w <> [] /\ In w L) ->
    extract_and_normalize ss si t s = extract_and_normalize ss si (with_normalizer t (sparing L f)) s.
  Proof.
    intros Ef M C Ne Hp. unfold extract_and_normalize. cbn [with_normalizer tk_raw tk_normalized tk_normalizer]. rewrite Ef.
    pose proof (new_in_place s C) as Pl. destruct (indices_labels ss si HS HI s (tk_raw t) (new_ns s) M Pl Ne) as (sps & Ei & N1 & F1). change (ns_norm (new_ns s)) with s in F1.
    assert (E1 : exists p, pt_split (fun _ n => split_with_indices ss si (tk_raw t) n) (pt_new s) = Ok p /\ pt_splits p = sps).
    { unfold pt_split, pt_new, pt_from_ns. cbn [pt_splits pt_orig split_pieces sp_toks sp_ns]. rewrite Ei. cbn [bind]. fold nonempty. rewrite (PipelineProofs.filter_true _ _ N1). eexists. split; [reflexivity|]. cbn [pt_splits]. apply app_nil_r. }
    destruct E1 as (p & -> & Ep). cbn [bind]. unfold pt_split. rewrite Ep. clear Ep Ei N1.
    match goal with |- (do x <- split_pieces ?g 0 sps; _) = (do y <- split_pieces ?h 0 sps; _) => assert (X : forall i, split_pieces g i sps = split_pieces h i sps) end.
    2:{ now rewrite X. }
    revert Hp F1. generalize (cut_added ss si (tk_raw t) s) as xs. intros xs Hp F1. induction F1 as [|x sp xs sps [T K] F1 IH]; intros i; [reflexivity|]. cbn [split_pieces]. rewrite K.
    destruct x as [[id|] w]; cbn [fst snd] in *; rewrite IH; try reflexivity; try (intros w' Hw'; apply Hp; now right).
    destruct (Hp w (or_introl eq_refl)) as [Nw Iw]. unfold apply_normalizer, sparing. unfold sp_text in T. rewrite T, (proj2 (among_in L w) (conj Nw Iw)). reflexivity.
  Qed.

  (** What a part becomes. *)
  Definition turned_items (cut : list N -> list (list N)) (g : str -> str) (x : item) : list item :=
    match fst x with Some _ => [x] | None => cut_item cut (None, g (snd x)) end.

  Definition plain_parts (xs : list item) : list str := map snd (filter (fun x => match fst x with None => true | Some _ => false end) xs).
  Lemma turned_text t u cut f g md ty ot s : matching_ok (tk_raw t) -> matching_ok (tk_normalized t) -> tk_normalizer t = Some f ->
    cuts_as u t cut -> with_default PipelineSpec.pre_ok (tk_pre t) -> with_default pre_returns (tk_pre t) ->
    tk_model t = Some md -> PipelineSpec.model_ok md -> model_returns md -> clean s -> s <> [] -> ot <> OInvalid ->
    let xs := cut_added ss si (tk_raw t) s in
    (forall w, In (None, w) xs -> w <> []) ->
    turns (plain_parts xs) f g -> (forall w, In (None, w) xs -> g w <> [] /\ Forall (fun l => l = []) (mt_find (tk_normalized t) (g w))) ->
    exists e rows, encode_sequence ss si t ty ot (Raw s) = Ok e /\ Forall2 (item_tokens md) (flat_map (turned_items cut g) xs) rows /\ consists_of e rows.
  Proof.
    intros M1 M2 En Cu Po Pr Em Mo Mr C Ne Hot xs Nx Tn Ug. set (L := plain_parts xs) in *. destruct (sparing_ok L f g Tn) as [No Nr]. set (t' := with_normalizer t (sparing L f)).
    assert (Hp : forall w, In (None, w) xs -> w <> [] /\ In w L) by (intros w Hw; split; [now apply Nx|]; apply in_map_iff; exists (None, w); split; [reflexivity|]; apply filter_In; auto).
    assert (Ag : encode_sequence ss si t ty ot (Raw s) = encode_sequence ss si t' ty ot (Raw s)).
    { unfold encode_sequence, encode_text. rewrite (parts_agree t f L s En M1 C Ne Hp). reflexivity. }
    destruct (sequence_returns ss si HS HI t' ty ot (Raw s)) as (e & E); auto.
    { split; [exact M1|]. split; [exact M2|]. split; [exact No|]. split; [left; exact Po|]. change (tk_model t') with (tk_model t). rewrite Em. exact Mo. }
    { split; [exact Nr|]. split; [left; exact Pr|]. exists md. split; [exact Em|exact Mr]. }
    destruct (text_consists ss si HS HI u t' cut md ty ot s e M1 M2 No Cu Em C E) as (its & rows & T & F & Co). exists e, rows. split; [now rewrite Ag|]. split; [|exact Co].
    replace (flat_map (turned_items cut g) xs) with its; [exact F|]. destruct T as (l & Fl & ->). change (tk_raw t') with (tk_raw t) in Fl. destruct s as [|c s']; [congruence|]. set (s := c :: s') in *. fold xs in Fl.
    rewrite flat_map_concat_map. f_equal. clear F Co E Ag. revert Hp Ug Fl. clear -En Tn HS HI. intros Hp Ug Fl. assert (I : incl xs xs) by apply incl_refl. revert I. revert Fl. generalize xs at 1 2 4 as ys. intros ys Fl.
    induction Fl as [|x its ys l H Fl IH]; intros I; [reflexivity|]. cbn [map]. f_equal; [|apply IH; intros q Hq; apply I; now right].
    assert (Ix : In x xs) by (apply I; now left). clear IH Fl I. unfold part_items in H. unfold turned_items. destruct x as [[id|] w]; cbn [fst snd] in *; [exact H|].
    destruct H as (n & m & Wn & U & Tx & Ea & ->). destruct (Hp w Ix) as [Nw Iw]. destruct (Ug w Ix) as [Ng Uf]. unfold apply_normalizer in Ea. cbn [tk_normalizer with_normalizer t'] in Ea. unfold sparing in Ea.
    rewrite Tx, (proj2 (among_in L w) (conj Nw Iw)) in Ea. destruct (Tn n Wn U) as (k & Ek & Tk & _); [congruence|congruence|]. rewrite Ek in Ea. injection Ea as <-. rewrite Tk, Tx. change (tk_normalized t') with (tk_normalized t). destruct (g w) as [|d z] eqn:Eg; [congruence|].
    rewrite (unfound ss si (tk_normalized t) (d :: z) HS HI ltac:(discriminate) Uf). cbn [flat_map]. apply app_nil_r.
  Qed.
End Sorted.
