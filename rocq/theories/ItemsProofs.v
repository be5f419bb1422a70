(** Proofs about the items of a text (C84). *)
From Verif Require Import Base BaseProofs Utf8Model NormalizedModel NormalizedSpec NormalizedProofs EncodingModel EncodingProofs BpeModel AddedVocabModel AddedVocabSpec PreTokenizedModel PreTokenizedSpec
  PreTokenizedProofs PreTokenizerModel PreTokenizerSpec PreTokenizerProofs PipelineModel PipelineSpec PipelineProofs Utf8Proofs TokensSpec TokensProofs WordsProofs ItemsSpec.
Open Scope Z_scope.

Lemma labelled_app a b x y : Forall2 labelled a x -> Forall2 labelled b y -> Forall2 labelled (a ++ b) (x ++ y).
Proof. apply Forall2_app. Qed.

(** Cutting keeps the labels. *)
Lemma recut_labelled cut p p' its : repieced cut p p' -> Forall2 labelled its (pt_splits p) -> Forall2 labelled (flat_map (cut_item cut) its) (pt_splits p').
Proof.
  intros (_ & news & -> & F) L. revert its L. induction F as [|sp new l news R F IH]; intros its L; inversion L as [|x ? its' ? [T K] L']; subst; [constructor|].
  cbn [flat_map concat]. apply labelled_app; [|now apply IH]. clear IH L L' F. unfold recut, has_toks in R. rewrite K in R. unfold cut_item. destruct x as [[id|] w]; cbn [fst snd] in *.
  - subst new. constructor; [split; assumption|constructor].
  - destruct R as [R1 R2]. rewrite T in R1. revert R1. generalize (cut (runes w)) as gs. induction R2 as [|y l' Hy R2 IH]; intros [|g gs] R1; try discriminate; [constructor|].
    cbn [map] in *. injection R1 as R0 R1. constructor; [|now apply IH]. split; [exact R0|]. cbn [fst]. unfold has_toks in Hy. destruct (sp_toks y); [discriminate|reflexivity].
Qed.
Lemma same_labelled cut p its : (forall rs, cut rs = [rs]) -> laid p -> Forall2 labelled its (pt_splits p) -> Forall2 labelled (flat_map (cut_item cut) its) (pt_splits p).
Proof.
  intros Hc [G _] L. induction L as [|x sp its l [T K] L IH]; [constructor|]. inversion G as [|? ? (P & _) G']; subst. cbn [flat_map]. change (sp :: l) with ([sp] ++ l). apply labelled_app; [|now apply IH].
  unfold cut_item. destruct x as [[id|] w]; cbn [fst snd] in *; [constructor; [split; assumption|constructor]|]. rewrite Hc. cbn [map]. constructor; [|constructor].
  destruct P as (_ & _ & (rs & Sc & _ & E) & _). unfold sp_text in T. rewrite E in T. split; cbn [snd fst]; [|exact K]. unfold sp_text. rewrite E, <- T. now rewrite runes_encode.
Qed.

Section Sorted.
  Variable ss si : list io_pair -> list io_pair.
  Hypothesis HS : sorts start_key ss.
  Hypothesis HI : sorts id_key si.

  (** The pieces before pre-tokenizing. *)
  Lemma extract_items t s p : matching_ok (tk_raw t) -> matching_ok (tk_normalized t) -> with_default normalizer_ok (tk_normalizer t) -> clean s ->
    extract_and_normalize ss si t s = Ok p ->
    exists l, Forall2 (fun x its => match fst x with
        | Some _ => its = [x]
        | None => exists n m, wf n /\ untouched n /\ ns_norm n = snd x /\ apply_normalizer (tk_normalizer t) n = Ok m /\
            its = match ns_norm m with [] => [] | y => cut_added ss si (tk_normalized t) y end
        end) (match s with [] => [] | _ => cut_added ss si (tk_raw t) s end) l /\ Forall2 labelled (concat l) (pt_splits p).
  Proof.
    intros M1 M2 N C E. pose proof (new_in_place s C) as P. unfold extract_and_normalize in E. destruct (raw_apart ss si HS HI (tk_raw t) s M1 C) as (p1 & E1 & O1 & [G _] & U1). rewrite E1 in E. cbn [bind] in E.
    destruct s as [|c s'].
    - unfold pt_split, pt_new, pt_from_ns in E1. cbn [pt_splits pt_orig split_pieces sp_toks sp_ns] in E1. destruct (indices_empty ss si _ (tk_raw t) (new_ns []) P eq_refl) as (sps & Ei & F).
      rewrite Ei in E1. cbn [bind] in E1. fold nonempty in E1. fold nonempty in F. rewrite F in E1. injection E1 as <-. cbn in E. injection E as <-. exists []. split; [constructor|constructor].
    - set (s := c :: s') in *. assert (Ne : s <> []) by discriminate. destruct (indices_labels ss si HS HI s (tk_raw t) (new_ns s) M1 P Ne) as (sps & Ei & N1 & F1).
      unfold pt_split, pt_new, pt_from_ns in E1. cbn [pt_splits pt_orig split_pieces sp_toks sp_ns] in E1. rewrite Ei in E1. cbn [bind] in E1. fold nonempty in E1.
      rewrite (PipelineProofs.filter_true _ _ N1), app_nil_r in E1. injection E1 as <-. cbn [pt_splits pt_orig] in *. change (ns_norm (new_ns s)) with s in F1.
      unfold pt_split in E. cbn [pt_splits pt_orig] in E. destruct (split_pieces _ 0 sps) as [l'| | | |] eqn:El; cbn [bind] in E; try discriminate. injection E as <-. cbn [pt_splits].
      destruct (split_pieces_news _ _ _ _ El) as (news & -> & F2). clear El Ei. change (match s with [] => [] | _ => cut_added ss si (tk_raw t) s end) with (cut_added ss si (tk_raw t) s).
      revert G N1 F1 U1. generalize (cut_added ss si (tk_raw t) s) as L. clear -F2 M2 N HS HI.
      induction F2 as [|sp new sps news H F2 IH]; intros L G N1 F1 U1; inversion F1 as [|x ? L' ? [Tx Kx] F1']; subst; [exists []; split; constructor|].
      inversion G as [|? ? [P T] G']; subst. inversion N1 as [|? ? Ns N1']; subst. inversion U1 as [|? ? Us U1']; subst.
      destruct (IH L' G' N1' F1' U1') as (l & FL & OL). clear IH F1 F1' F2 G G' N1 N1' U1 U1'. rewrite Kx in H. destruct x as [[id|] w]; cbn [fst snd] in *.
      + subst new. exists ([(Some id, w)] :: l). split; [constructor; [reflexivity|exact FL]|]. cbn [concat]. apply labelled_app; [|exact OL]. constructor; [split; assumption|constructor].
      + destruct H as (i & new0 & H & ->). apply bind_Ok_inv in H as (m & Em & H). destruct (apply_ok t _ _ m N P Us Em) as (Pm & _ & _).
        exists ((match ns_norm m with [] => [] | y => cut_added ss si (tk_normalized t) y end) :: l). split.
        * constructor; [|exact FL]. cbn [fst snd]. exists (sp_ns sp), m. split; [apply P|]. split; [exact Us|]. split; [exact Tx|]. split; [exact Em|reflexivity].
        * cbn [concat]. apply labelled_app; [|exact OL]. fold nonempty. destruct (ns_norm m) as [|b y] eqn:En.
          -- destruct (indices_empty ss si s (tk_normalized t) m Pm En) as (sps' & E' & F'). assert (sps' = new0) by congruence. subst. fold nonempty in F'. rewrite F'. constructor.
          -- rewrite <- En. destruct (indices_labels ss si HS HI s (tk_normalized t) m M2 Pm ltac:(congruence)) as (sps' & E' & N' & F'). assert (sps' = new0) by congruence. subst.
             rewrite (PipelineProofs.filter_true _ _ N'). exact F'.
  Qed.

  Lemma labelled_tokens t f its sps toks : tk_model t = Some f -> Forall2 labelled its sps -> Forall2 (tokens_from t) sps toks ->
    Forall2 (item_tokens f) its (map (map (fun t => (t_id t, t_value t))) toks).
  Proof.
    intros Fm L. revert toks. induction L as [|x sp its sps [T K] L IH]; intros toks F; inversion F as [|? ts ? toks' [Nt X] F']; subst; [constructor|].
    cbn [map]. constructor; [|now apply IH]. unfold item_tokens. rewrite K in X. destruct x as [[id|] w]; cbn [fst snd] in *.
    - subst ts. reflexivity.
    - destruct X as (f' & Ef & X). assert (f' = f) by congruence. subst f'. exists ts. rewrite T in X. auto.
  Qed.
  Lemma run_numbers_map {A B} (g : list A -> list B) (Hg : forall l, length (g l) = length l) : forall ls i, run_numbers i (map g ls) = run_numbers i ls.
  Proof. induction ls as [|l ls IH]; intros i; [reflexivity|]. cbn [map run_numbers]. now rewrite Hg, IH. Qed.
  Lemma concat_rows (toks : list (list token)) : concat (map (map (fun t => (t_id t, t_value t))) toks) = map (fun t => (t_id t, t_value t)) (concat toks).
  Proof. symmetry. apply concat_map. Qed.

  Lemma text_consists u t cut f ty ot s e : matching_ok (tk_raw t) -> matching_ok (tk_normalized t) -> with_default normalizer_ok (tk_normalizer t) ->
    cuts_as u t cut -> tk_model t = Some f -> clean s -> encode_sequence ss si t ty ot (Raw s) = Ok e ->
    exists its rows, text_items ss si t cut s its /\ Forall2 (item_tokens f) its rows /\ consists_of e rows.
  Proof.
    intros M1 M2 No Cu Fm C E. destruct (raw_tokens ss si _ _ _ _ _ E) as (p & p' & toks & E1 & E2 & F & (R1 & R2 & _) & R3).
    destruct (extract_items t s p M1 M2 No C E1) as (l & FL & OL). destruct (extract_laid ss si HS HI t s p M1 M2 No C E1) as (L1 & _).
    assert (L : Forall2 labelled (flat_map (cut_item cut) (concat l)) (pt_splits p')).
    { unfold cuts_as in Cu. destruct (tk_pre t) as [g|].
      - destruct Cu as (pre & -> & Doc). destruct (documented_some u pre cut p Doc (laid_some p L1)) as (q & E3 & _ & R). assert (q = p') by congruence. subst q. exact (recut_labelled cut p p' _ R OL).
      - subst p'. now apply same_labelled. }
    exists (flat_map (cut_item cut) (concat l)), (map (map (fun t => (t_id t, t_value t))) toks). split; [|split; [exact (labelled_tokens t f _ _ _ Fm L F)|]].
    - exists (map (flat_map (cut_item cut)) l). split.
      + unfold item. revert FL. match goal with |- Forall2 _ ?x _ -> _ => generalize x end. clear. intros xs FL. induction FL as [|x its xs l H FL IH]; [constructor|].
        cbn [map]. constructor; [|exact IH]. unfold part_items. destruct x as [[id|] w]; cbn [fst snd] in *.
        * subst its. reflexivity.
        * destruct H as (n & m & H0 & H1 & H2 & H3 & ->). exists n, m. split; [exact H0|]. split; [exact H1|]. split; [exact H2|]. split; [exact H3|]. destruct (ns_norm m); reflexivity.
      + clear. induction l as [|y l IH]; [reflexivity|]. cbn [concat map]. rewrite flat_map_app. now f_equal.
    - unfold consists_of. rewrite concat_rows, !map_map. cbn [fst snd]. split; [exact R1|]. split; [exact R2|]. rewrite R3. symmetry. apply run_numbers_map. intros x. apply map_length.
  Qed.
End Sorted.
