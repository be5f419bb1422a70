(** Models that spell words with whole characters (C75). *)
From Verif Require Import Base BaseProofs Utf8Model Utf8Proofs EncodingModel EncodingProofs BpeModel BpeSpec BpeTokSpec BpeTokProofs BpeSaveModel
  AddedVocabModel UnigramModel UnigramSpec UnigramProofs PipelineModel PipelineSpec RoundTripSpec RoundTripBpeProofs MetaTripSpec.
Open Scope Z_scope.

Section Bpe.
  Variable b : bpe.
  Hypothesis L : literal b.
  Local Notation whole := (fun sg : BpeSpec.seg => text_of b (fst sg) <> [] /\ valid_utf8 (text_of b (fst sg))).

  Lemma symbols_fit : forall rs l, Forall2 (char_symbol b) rs l -> Forall scalar rs -> Forall (fun c => vget (encode_rune c) (b_vocab b) <> None) rs -> Forall whole l.
  Proof.
    induction 1 as [|r sg rs l S F IH]; intros Sc V; [constructor|]. apply Forall_cons_iff in V as [V1 V2]. apply Forall_cons_iff in Sc as [Sc1 Sc2]. constructor; [|now apply IH].
    assert (Nm : names b (fst sg) (encode_rune r)).
    { destruct S as [_ [H|[H _]]]; [|congruence]. split; [exact H|]. left. eauto. }
    rewrite (names_text b L _ _ Nm). split; [apply encode_rune_nonempty|]. exists [r]. split; [now constructor|]. unfold encode. cbn [map concat]. now rewrite app_nil_r.
  Qed.
  Lemma steps_fit l l' : merge_steps (lookup_merge (b_merges b)) l l' -> Forall whole l -> Forall whole l'.
  Proof.
    induction 1 as [l|r l1 l2 l3 S M IH]; intros F; [exact F|]. apply IH. destruct S as [A B c1 n1 c2 n2 r new H]. destruct L as (_ & I & G).
    destruct (G _ _ _ _ H) as (x & y & X & Y & V). apply Forall_app in F as [FA F]. apply Forall_cons_iff in F as [F1 F]. apply Forall_cons_iff in F as [F2 FB].
    apply Forall_app. split; [exact FA|]. constructor; [|exact FB]. cbn [fst] in *. unfold text_of in *. rewrite X in F1. rewrite Y in F2. rewrite (I _ _ V). split; [|now apply valid_utf8_app].
    intros Z. apply app_eq_nil in Z as [Z _]. now apply (proj1 F1).
  Qed.
  Lemma bpe_fit w toks : valid_utf8 w -> Forall (fun c => vget (encode_rune c) (b_vocab b) <> None) (runes w) -> bpe_tokenize b w = Ok toks ->
    Forall (fun t => t_value t <> [] /\ valid_utf8 (t_value t)) toks.
  Proof.
    intros (rs & Sc & ->) V E. rewrite runes_encode in V by assumption. pose proof L as (Pn & _).
    destruct (tokenize_exhaustive b _ toks Pn E) as (l & F & M & _). rewrite runes_encode in F by assumption.
    pose proof (steps_fit _ _ M (symbols_fit rs l F Sc V)) as T. pose proof (tokens_values b _ _ E) as Tv. rewrite Forall_forall in *.
    intros t Ht. rewrite (Tv t Ht). assert (Hs : In (t_id t, snd (t_off t) - fst (t_off t)) (tok_segs toks)) by (unfold tok_segs; apply in_map_iff; exists t; auto). exact (T _ Hs).
  Qed.
  Lemma bpe_spells_whole name w : valid_utf8 w -> w <> [] -> Forall (fun c => vget (encode_rune c) (b_vocab b) <> None) (runes w) ->
    (forall s id, vget s (b_vocab b) = Some id -> makes b s -> name id = Some s) -> spells_whole (always (bpe_tokenize b)) name w.
  Proof.
    intros Vw Ne V N. destruct (bpe_spells b L name w Vw Ne V N) as (toks & E & Nt & C & F). exists toks. split; [exact E|]. split; [exact Nt|]. split; [exact C|].
    unfold always in E. apply bind_Ok_inv in E as (ts & E & E'). injection E' as ->. pose proof (bpe_fit w toks Vw V E) as G. clear -F G. induction F as [|t l H F IH]; [constructor|].
    apply Forall_cons_iff in G as [G1 G2]. constructor; [now split|now apply IH].
  Qed.
End Bpe.

(** ** Unigram *)
Lemma encode_cut : forall ts x rs, Forall scalar ts -> Forall scalar rs -> encode ts ++ x = encode rs -> exists rs', rs = ts ++ rs' /\ x = encode rs'.
Proof.
  induction ts as [|c ts IH]; intros x rs St Sr E; [exists rs; auto|]. apply Forall_cons_iff in St as [Sc St]. rewrite encode_cons, <- app_assoc in E. destruct rs as [|r rs].
  - exfalso. apply app_eq_nil in E as [E _]. now apply (encode_rune_nonempty c).
  - apply Forall_cons_iff in Sr as [Sr Srs]. rewrite encode_cons in E. pose proof (decode_encode c (encode ts ++ x) Sc) as D1. pose proof (decode_encode r (encode rs) Sr) as D2. rewrite E, D2 in D1. injection D1 as <- _.
    apply app_inv_head in E. destruct (IH x rs St Srs E) as (rs' & -> & ->). exists rs'. auto.
Qed.

Section Unigram.
  Context {S : Type}.
  Variable u : unigram (S := S).
  Hypothesis Vt : Forall (fun p => valid_utf8 (fst p)) (ug_vocab u).

  Lemma known_only s gs : segmentation u s gs -> forall rs, s = encode rs -> Forall scalar rs -> Forall (fun c => In (encode_rune c) (map fst (ug_vocab u))) rs ->
    Forall (fun g => exists t k sc, g = Known t k sc /\ entry (ug_vocab u) t k sc /\ valid_utf8 t) gs.
  Proof.
    induction 1 as [|g rest gs Hg Sg IH]; intros rs Er Sr Kr; [constructor|]. destruct g as [t k sc|t]; cbn [seg_text allowed] in *.
    - destruct Hg as [En _]. assert (V : valid_utf8 t).
      { destruct En as [En _]. apply nth_error_In in En. rewrite Forall_forall in Vt. exact (Vt _ En). }
      constructor; [eauto 6|]. destruct V as (ts & St & ->). destruct (encode_cut ts rest rs St Sr Er) as (rs' & -> & ->). apply Forall_app in Sr as [_ Sr]. apply Forall_app in Kr as [_ Kr]. exact (IH rs' eq_refl Sr Kr).
    - exfalso. destruct Hg as (_ & Nt & Ni & Lt). destruct rs as [|c rs]; [destruct t; [congruence|discriminate Er]|]. apply Forall_cons_iff in Sr as [Sc _]. apply Forall_cons_iff in Kr as [Kc _]. apply Ni.
      rewrite Er in Lt. rewrite encode_cons in Er, Lt. rewrite decode_encode in Lt by assumption. cbn [fst] in Lt. assert (t = encode_rune c); [|congruence].
      assert (X : firstn (length t) (t ++ rest) = firstn (length t) (encode_rune c ++ encode rs)) by (now rewrite Er). rewrite Lt in X at 2. rewrite !firstn_app, !Nat.sub_diag, !firstn_all, !firstn_O, !app_nil_r in X. exact X.
  Qed.
  Lemma infix_seg s gs g : segmentation u s gs -> In g gs -> exists a z, s = a ++ seg_text g ++ z.
  Proof.
    induction 1 as [|h rest gs Hg Sg IH]; intros H; [destruct H|]. destruct H as [<-|H]; [exists [], rest; reflexivity|]. destruct (IH H) as (a & z & ->). exists (seg_text h ++ a), z. now rewrite app_assoc.
  Qed.

  Lemma unigram_spells lt (bot zero : S) plus bonus penal name w : score_laws lt bot plus -> ug_bytes u = false -> valid_utf8 w -> w <> [] ->
    Forall (fun c => In (encode_rune c) (map fst (ug_vocab u))) (runes w) ->
    (forall k t sc a z, ug_unk u = Some (Z.of_nat k) -> nth_error (ug_vocab u) k = Some (t, sc) -> w <> a ++ t ++ z) ->
    (exists gs, segmentation u w gs /\ lt bot (total lt zero plus bonus penal u gs) = true) ->
    (forall t id a z, ug_token_to_id u t = Some id -> w = a ++ t ++ z -> name id = Some t) ->
    spells_whole (always (ug_tokenize lt bot zero plus bonus penal u)) name w.
  Proof.
    intros Ls B (rs & Sc & ->) Ne K Nu Fin Nm. rewrite runes_encode in K by assumption.
    destruct (best lt bot zero plus bonus penal Ls u (encode rs) B Ne) as [(gs & Sg & E & _)|[H _]]; [|exfalso; destruct Fin as (gs & Sg & X); rewrite (H gs Sg) in X; discriminate].
    pose proof (known_only _ _ Sg rs eq_refl Sc K) as Kn.
    assert (T : texts u gs = map seg_text gs).
    { unfold texts. destruct (ug_unk u) as [unk|] eqn:Eu; [|reflexivity]. destruct (ug_fuse u); [|reflexivity].
      assert (Q : Forall (fun g => match seg_id (Some unk) g with Some i => i =? unk | None => false end = false) gs).
      { rewrite Forall_forall in *. intros g Hg. destruct (Kn g Hg) as (t & k & sc & -> & [En _] & _). cbn [seg_id]. apply Z.eqb_neq. intros <-.
        destruct (infix_seg _ _ _ Sg Hg) as (a & z & X). cbn [seg_text] in X. exact (Nu k t sc a z eq_refl En X). }
      clear -Q. induction Q as [|g gs H F IH]; [reflexivity|]. cbn [fused map]. rewrite H. cbn [app]. now rewrite IH. }
    pose proof (texts_values u _ gs Sg) as Tv. rewrite T in *. exists (ug_tokens u 0 (map seg_text gs)). split; [unfold always; now rewrite E|].
    assert (Cc : concat (map seg_text gs) = encode rs) by (exact (segmentation_text _ _ _ Sg)). split; [|split].
    - intros X. rewrite X in Tv. cbn [map] in Tv. rewrite <- Tv in Cc. apply Ne. now rewrite <- Cc.
    - now rewrite Tv.
    - apply Forall_forall. intros t Ht. assert (Hv : In (t_value t) (map seg_text gs)) by (rewrite <- Tv; now apply in_map). apply in_map_iff in Hv as (g & Eg & Hg).
      rewrite Forall_forall in Kn. destruct (Kn g Hg) as (v & k & sc & -> & En & V). cbn [seg_text] in Eg. subst v. split; [|split; [|exact V]].
      + pose proof (ug_tokens_ids u (map seg_text gs) 0) as I. rewrite Forall_forall in I. destruct (infix_seg _ _ _ Sg Hg) as (a & z & X). cbn [seg_text] in X. apply (Nm _ _ a z); [|exact X].
        destruct (I t Ht) as [H|[H _]]; [exact H|]. exfalso. assert (Y : ug_token_to_id u (t_value t) = Some (Z.of_nat k)) by (apply ug_lookup; eauto). congruence.
      + pose proof (segmentation_nonempty _ _ _ Sg) as N. rewrite Forall_forall in N. apply N. rewrite <- Tv. now apply in_map.
  Qed.
End Unigram.
