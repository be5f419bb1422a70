(** BPE and Unigram tokens spell the word (C72). *)
From Verif Require Import Base BaseProofs NormalizedInvProofs NormalizedOpProofs DecoderModel DecoderSpec DecoderProofs EncodingModel EncodingProofs Utf8Model Utf8Proofs BpeModel BpeSpec BpeTokSpec BpeTokProofs BpeSaveModel BpeSaveSpec BpeSaveProofs PipelineSpec RoundTripSpec.
Open Scope Z_scope.

Section Bpe.
  Variable b : bpe.
  Hypothesis L : literal b.

  (** The text of an id that the model makes. *)
  Definition names (id : Z) (s : str) : Prop := vget s (b_vocab b) = Some id /\ makes b s.
  Definition text_of (id : Z) : str := opt_str (vrget id (b_vocab_r b)).
  Lemma names_text id s : names id s -> text_of id = s.
  Proof. intros [H _]. unfold text_of. destruct L as (_ & I & _). now rewrite (I _ _ H). Qed.
  Lemma symbols_text : forall rs l, Forall2 (char_symbol b) rs l -> Forall (fun c => vget (encode_rune c) (b_vocab b) <> None) rs ->
    Forall (fun sg => exists s, names (fst sg) s) l /\ concat (map (fun sg : BpeSpec.seg => text_of (fst sg)) l) = encode rs.
  Proof.
    induction 1 as [|r sg rs l S F IH]; intros V; [split; [constructor|reflexivity]|]. apply Forall_cons_iff in V as [V1 V2]. destruct (IH V2) as [I1 I2].
    assert (Nm : names (fst sg) (encode_rune r)).
    { destruct S as [_ [H|[H _]]]; [|congruence]. split; [exact H|]. left. eauto. }
    split; [constructor; eauto|]. cbn [map concat]. now rewrite I2, (names_text _ _ Nm), encode_cons.
  Qed.
  Lemma steps_text l l' : merge_steps (lookup_merge (b_merges b)) l l' -> Forall (fun sg => exists s, names (fst sg) s) l ->
    Forall (fun sg => exists s, names (fst sg) s) l' /\ concat (map (fun sg : BpeSpec.seg => text_of (fst sg)) l') = concat (map (fun sg : BpeSpec.seg => text_of (fst sg)) l).
  Proof.
    induction 1 as [l|r l1 l2 l3 S M IH]; intros F; [auto|]. destruct S as [A B c1 n1 c2 n2 r new H]. destruct L as (_ & I & G).
    destruct (G _ _ _ _ H) as (x & y & X & Y & V). apply Forall_app in F as [FA F]. apply Forall_cons_iff in F as [_ F]. apply Forall_cons_iff in F as [_ FB].
    destruct IH as [I1 I2]; [apply Forall_app; split; [exact FA|constructor; [|exact FB]]|].
    { exists (x ++ y). cbn [fst]. split; [exact V|]. right. eauto 10. }
    split; [exact I1|]. rewrite I2. rewrite !map_app, !concat_app. cbn [map concat fst]. f_equal. rewrite app_assoc. f_equal. unfold text_of. now rewrite X, Y, (I _ _ V).
  Qed.
  Lemma tokens_values w toks : bpe_tokenize b w = Ok toks -> Forall (fun t => t_value t = text_of (t_id t)) toks.
  Proof.
    intros H. unfold bpe_tokenize in H. destruct (length w =? 0)%nat; [injection H as <-; constructor|]. apply bind_Ok_inv in H as (w' & _ & H). injection H as <-.
    unfold word_to_tokens. apply Forall_map. apply Forall_forall. reflexivity.
  Qed.
  Lemma bpe_spells name w : valid_utf8 w -> w <> [] -> Forall (fun c => vget (encode_rune c) (b_vocab b) <> None) (runes w) ->
    (forall s id, vget s (b_vocab b) = Some id -> makes b s -> name id = Some s) -> spells (always (bpe_tokenize b)) name w.
  Proof.
    intros (rs & Sc & ->) Ne V N. rewrite runes_encode in V by assumption. pose proof L as (Pn & I & G).
    assert (E : exists toks, bpe_tokenize b (encode rs) = Ok toks).
    { destruct (tokenize_spec b (encode rs) Ne) as [(l & w' & _ & E & _)|[_ Ex]]; [eauto|]. exfalso. apply Exists_exists in Ex as ([i r] & Hin & Hn).
      pose proof (in_combine_l _ _ _ _ Hin) as Hi. apply in_seq in Hi. apply in_combine_r in Hin. rewrite runes_encode in Hin by assumption. rewrite Forall_forall in V. apply (V r Hin). cbn [fst snd] in Hn. unfold char_id, char_key in Hn. rewrite Pn in Hn. cbn [opt_str app] in Hn.
      destruct (i =? 0)%nat; [destruct (vget (encode_rune r) (b_vocab b)); congruence|]. destruct (i =? length (runes (encode rs)))%nat eqn:Ei.
      - apply Nat.eqb_eq in Ei. lia.
      - destruct (vget (encode_rune r) (b_vocab b)); congruence. }
    destruct E as (toks & E). destruct (tokenize_exhaustive b _ toks Pn E) as (l & F & M & _). rewrite runes_encode in F by assumption.
    destruct (symbols_text rs l F V) as [S1 S2]. destruct (steps_text _ _ M S1) as [T1 T2]. pose proof (tokens_values _ _ E) as Tv. rewrite Forall_forall in Tv, T1.
    exists toks. unfold always. rewrite E. split; [reflexivity|]. split; [|split].
    - intros ->. cbn in T2. rewrite S2 in T2. auto.
    - rewrite S2 in T2. rewrite <- T2. unfold tok_segs. rewrite map_map. f_equal. apply map_ext_in. exact Tv.
    - apply Forall_forall. intros t Ht. assert (Hs : In (t_id t, snd (t_off t) - fst (t_off t)) (tok_segs toks)) by (unfold tok_segs; apply in_map_iff; exists t; auto).
      destruct (T1 _ Hs) as (s & Hn). cbn [fst] in Hn. rewrite (Tv t Ht), (names_text _ _ Hn). destruct Hn. now apply N.
  Qed.
End Bpe.

Lemma accepts_in v lines acc : accepts v lines acc -> forall c1 c2 new, In ((c1, c2), new) acc ->
  exists x y, vget x v = Some c1 /\ vget y v = Some c2 /\ vget (x ++ y) v = Some new.
Proof.
  induction 1 as [|line lines acc x y T K A IH|line lines acc x y a b n T Ka Kb Kn A IH]; intros c1 c2 new I; [destruct I|eauto|].
  destruct I as [E|I]; [|eauto]. injection E as E1 E2 E3. subst. eauto.
Qed.

Lemma loaded_literal v order lines t unk suffix :
  NoDup (map fst v) -> (forall s s' id, vget s v = Some id -> vget s' v = Some id -> s' = s) -> Permutation order v ->
  create_merges v lines = Ok t -> literal (Bpe v (build_vocab_r order) t unk None suffix).
Proof.
  intros N D P C. assert (I : forall s id, vget s v = Some id -> vrget id (build_vocab_r order) = Some s).
  { intros s id H. destruct (vocab_r_total v order id s P H) as (k & E). rewrite E. f_equal.
    apply (D s k id H). exact (vocab_r_inverse v order id k N P E). }
  split; [reflexivity|]. split; [exact I|]. cbn [b_merges b_vocab b_vocab_r]. intros c1 c2 rank new H.
  destruct (create_merges_ok v lines t C) as (acc & A & K). destruct (proj1 (K _ _ _ _) H) as (i & [H2 _] & _). apply nth_error_In in H2. clear H. rename H2 into H.
  destruct (accepts_in _ _ _ A _ _ _ H) as (x & y & X & Y & Z). exists x, y. auto.
Qed.

(** ** Words of rendered bytes *)
Lemma render_chars bs : Forall (fun b => (b < 256)%N) bs ->
  exists rs, Forall scalar rs /\ bl_render bs = encode rs /\ Forall (fun c => exists b, (b < 256)%N /\ encode_rune c = byte_char b) rs.
Proof.
  unfold bl_render. induction 1 as [|b s Hb H (rs & A & B & C)]; [exists []; repeat split; constructor|].
  destruct (byte_char_spec b Hb) as (r & R1 & R2 & _). exists (r :: rs). split; [constructor; assumption|]. split.
  - cbn [map concat]. now rewrite encode_cons, B, R2.
  - constructor; [|assumption]. eauto.
Qed.
Lemma bytes_spelled b name bs : literal b -> (forall k, (k < 256)%N -> vget (byte_char k) (b_vocab b) <> None) ->
  (forall s id, vget s (b_vocab b) = Some id -> makes b s -> name id = Some s) -> bs <> [] -> Forall (fun k => (k < 256)%N) bs ->
  spells (always (bpe_tokenize b)) name (bl_render bs).
Proof.
  intros L V N Ne B. destruct (render_chars bs B) as (rs & Sc & E & C). assert (Nr : rs <> []).
  { intros ->. destruct bs as [|k bs]; [congruence|]. inversion B; subst. destruct (byte_char_spec k) as (r & _ & R2 & _); [assumption|]. unfold bl_render in E. cbn [map concat] in E. rewrite R2 in E.
    pose proof (zlen_rune r) as Z. destruct (encode_rune r); [unfold zlen in Z; cbn in Z; lia|discriminate]. }
  rewrite E. apply (bpe_spells b L name); [now exists rs| | |exact N].
  - intros X. apply Nr. destruct rs as [|r rs]; [reflexivity|]. rewrite encode_cons in X. apply app_eq_nil in X as [X _]. pose proof (zlen_rune r) as Z. rewrite X in Z. unfold zlen in Z. cbn in Z. lia.
  - rewrite runes_encode by assumption. eapply Forall_impl; [|exact C]. intros c (k & Hk & ->). now apply V.
Qed.
