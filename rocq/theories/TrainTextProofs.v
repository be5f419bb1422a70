(** Which texts training can make: every entry made by merging is a run of consecutive
    characters of a word of the corpus (C47, C68). *)
From Verif Require Import Base BaseProofs EncodingProofs SliceModel SliceProofs BatchProofs Utf8Model BpeModel DecoderModel
  DecoderSpec DecoderProofs TrainerModel TrainerSpec TrainerCountProofs TrainerProofs.
Open Scope Z_scope.

(** The symbols [syms] of a word cut its character strings [us] into runs. *)
Inductive segs (l : list str) : list str -> list Z -> Prop :=
| segs_nil : segs l [] []
| segs_cons part us id syms : part <> [] -> at_index l id (concat part) -> segs l us syms -> segs l (part ++ us) (id :: syms).

Lemma segs_mono l m us syms : segs l us syms -> segs (l ++ m) us syms.
Proof. induction 1; constructor; auto using at_index_app. Qed.
Lemma at_index_fun l i a b : at_index l i a -> at_index l i b -> a = b.
Proof. intros [_ A] [_ B]. congruence. Qed.

(** The entry is a run of the character strings of a word. *)
Definition run_of (units : list (list str)) (x : str) : Prop :=
  exists us a u c, In us units /\ us = (a ++ u ++ c)%list /\ u <> [] /\ x = concat u.

Lemma segs_merge l c1 c2 r sa sb : at_index l c1 sa -> at_index l c2 sb -> at_index l r (sa ++ sb) ->
  forall n w, (length w <= n)%nat -> forall prev us, segs l us w -> segs l us (fst (merge_syms c1 c2 r prev w)).
Proof.
  intros A B R. induction n as [|n IH]; intros w0 L prev us G.
  - destruct w0; [exact G|cbn in L; lia].
  - destruct w0 as [|a w']; [exact G|]. cbn [merge_syms]. destruct w' as [|b rest]; [exact G|].
    inversion G as [|p1 us1 id1 sy1 N1 A1 G1]; subst. inversion G1 as [|p2 us2 id2 sy2 N2 A2 G2]; subst.
    destruct (Z.eqb_spec a c1) as [Ea|Ea]; [destruct (Z.eqb_spec b c2) as [Eb|Eb]|]; cbn [andb].
    + subst. specialize (IH rest ltac:(cbn in L; lia) (Some r) us2 G2). destruct (merge_syms c1 c2 r (Some r) rest). cbn [fst] in *.
      rewrite app_assoc. constructor; [destruct p1; [contradiction|discriminate]| |exact IH].
      rewrite concat_app, <- (at_index_fun _ _ _ _ A A1), <- (at_index_fun _ _ _ _ B A2). exact R.
    + specialize (IH (b :: rest) ltac:(cbn in *; lia) (Some a) _ G1). destruct (merge_syms c1 c2 r (Some a) (b :: rest)). cbn [fst] in *. now constructor.
    + specialize (IH (b :: rest) ltac:(cbn in *; lia) (Some a) _ G1). destruct (merge_syms c1 c2 r (Some a) (b :: rest)). cbn [fst] in *. now constructor.
Qed.
Lemma segs_adjacent l a b sa sb : at_index l a sa -> at_index l b sb -> forall w us, segs l us w -> In (a, b) (adjacent w) ->
  exists x u y, us = (x ++ u ++ y)%list /\ u <> [] /\ (sa ++ sb)%list = concat u.
Proof.
  intros A B w us G. induction G as [|part us id syms N1 A1 G IH]; [intros []|]. destruct syms as [|b' rest]; [intros []|].
  change (adjacent (id :: b' :: rest)) with ((id, b') :: adjacent (b' :: rest)). intros [E|I].
  - injection E as -> ->. inversion G as [|p2 us2 id2 sy2 N2 A2 G2]; subst. exists [], (part ++ p2)%list, us2. split; [cbn; now rewrite app_assoc|].
    split; [destruct part; [contradiction|discriminate]|]. rewrite concat_app, <- (at_index_fun _ _ _ _ A A1), <- (at_index_fun _ _ _ _ B A2). reflexivity.
  - destruct (IH I) as (x & u & y & E & Nu & C). exists (part ++ x)%list, u, y. split; [rewrite E; now rewrite <- app_assoc|auto].
Qed.

(** All words at once. *)
Definition all_segs (l : list str) (units : list (list str)) (words : list (list Z)) : Prop := Forall2 (segs l) units words.
Lemma f2_upd {A B} (P : A -> B -> Prop) : forall la lb k y, Forall2 P la lb -> (forall x, nth_error la k = Some x -> P x y) -> Forall2 P la (upd lb k y).
Proof.
  intros la lb k y F. revert k. induction F as [|a b la lb Pab F IH]; intros k H; [destruct k; constructor|].
  destruct k as [|k]; cbn; constructor; auto.
Qed.
Lemma f2_nth {A B} (P : A -> B -> Prop) la lb k a b : Forall2 P la lb -> nth_error la k = Some a -> nth_error lb k = Some b -> P a b.
Proof. intros F. revert k. induction F as [|x y la lb Pxy F IH]; intros [|k]; cbn; try discriminate; [congruence|apply IH]. Qed.
Lemma f2_nth_l {A B} (P : A -> B -> Prop) la lb k b : Forall2 P la lb -> nth_error lb k = Some b -> exists a, nth_error la k = Some a /\ P a b.
Proof. intros F. revert k. induction F as [|x y la lb Pxy F IH]; intros [|k]; cbn; try discriminate; [intros [= <-]; eauto|apply IH]. Qed.

Lemma merge_words_segs l units m newId sa sb :
  at_index l (fst (tm_pair m)) sa -> at_index l (snd (tm_pair m)) sb -> at_index l newId (sa ++ sb) ->
  forall words r, all_segs l units words -> merge_words m newId words = Ok r -> all_segs l units (fst r).
Proof.
  intros A B R words r. unfold merge_words.
  assert (G : forall pos ws ch r, all_segs l units ws -> foldR (fun (s : list (list Z) * list (((Z * Z) * Z) * nat)) k =>
      do w <- zindex (fst s) (Z.of_nat k);
      let '(w', ch) := merge_syms (fst (tm_pair m)) (snd (tm_pair m)) newId None w in
      do ws <- zupd (fst s) (Z.of_nat k) w';
      Ok (ws, (snd s ++ map (fun c => (c, k)) ch)%list)) pos (ws, ch) = Ok r -> all_segs l units (fst r)).
  { clear r. induction pos as [|k pos IH]; intros ws ch r S; cbn [foldR]; [intros [= <-]; exact S|].
    cbn [fst snd]. intros H. apply bind_Ok_inv in H as (s1 & H1 & H). apply bind_Ok_inv in H1 as (w & Hw & H1).
    destruct (merge_syms _ _ newId None w) as [w' cw] eqn:M. apply bind_Ok_inv in H1 as (ws1 & Hu & H1). injection H1 as <-.
    apply (IH ws1 _ _) in H; [exact H|]. unfold zindex in Hw. destruct (0 <=? Z.of_nat k); [|discriminate].
    rewrite Nat2Z.id in Hw. destruct (nth_error ws k) as [w0|] eqn:Nk; [|discriminate]. injection Hw as ->.
    rewrite zupd_ok in Hu by (apply nth_error_Some; congruence). injection Hu as <-. apply f2_upd; [exact S|]. intros us Hus.
    pose proof (f2_nth _ _ _ _ _ _ S Hus Nk) as Sk.
    pose proof (segs_merge l _ _ newId sa sb A B R (length w) w (le_n _) None us Sk) as X. rewrite M in X. exact X. }
  intros S. apply (G (tm_pos m) words [] r S).
Qed.
Lemma still_there_true words m : still_there words m = Ok true ->
  exists k w, nth_error words k = Some w /\ In (tm_pair m) (adjacent w).
Proof.
  unfold still_there. assert (G : forall pos acc, foldR (fun found k => do w <- zindex words (Z.of_nat k);
      Ok (found || existsb (pair_eqb (tm_pair m)) (adjacent w))) pos acc = Ok true ->
      acc = true \/ exists k w, nth_error words k = Some w /\ In (tm_pair m) (adjacent w)).
  { induction pos as [|k pos IH]; intros acc; cbn [foldR]; [intros [= ->]; now left|]. intros H. apply bind_Ok_inv in H as (b & H1 & H).
    apply bind_Ok_inv in H1 as (w & Hw & H1). injection H1 as <-. destruct (IH _ H) as [E|E]; [|now right].
    apply orb_true_iff in E as [E|E]; [now left|]. right. unfold zindex in Hw. destruct (0 <=? _); [|discriminate]. rewrite Nat2Z.id in Hw.
    destruct (nth_error words k) as [w0|] eqn:Nk; [|discriminate]. injection Hw as ->. exists k, w. split; [exact Nk|].
    apply existsb_exists in E as (p & Hp & E). apply pair_eqb_eq in E. now subst. }
  intros H. destruct (G _ _ H) as [E|E]; [discriminate|exact E].
Qed.

Section Loop.
  Context (pick : list tmerge -> nat) (cf : tcfg) (counts : list Z) (units : list (list str)) (init : str -> Prop) (Q : N -> Prop).
  (** Texts made of such bytes do not start with the prefix. *)
  Hypothesis plain : forall x, Forall Q x -> strip_prefix (tc_prefix cf) x = x.

  Definition text_inv (s : tstate) : Prop :=
    all_segs (snd (ts_tab s)) units (ts_words s) /\
    (forall x, In x (snd (ts_tab s)) -> Forall Q x /\ (init x \/ run_of units x)).

  Lemma do_merge_text s m q s' : text_inv s -> still_there (ts_words s) m = Ok true -> do_merge cf counts m q s = Ok s' -> text_inv s'.
  Proof.
    intros [W E] St. unfold do_merge. destruct (ts_tab s) as [v l] eqn:Et. cbn [snd] in W, E. intros H.
    apply bind_Ok_inv in H as (sa & Ha & H). apply bind_Ok_inv in H as (sb & Hb & H). apply bind_Ok_inv in H as (wc & Hw & H).
    apply bind_Ok_inv in H as (pp & _ & H). injection H as <-. unfold text_inv. cbn [ts_tab ts_words snd].
    apply zindex_at in Ha, Hb.
    assert (Ea : In sa l) by (destruct Ha as [_ Ha]; now apply nth_error_In in Ha).
    assert (Eb : In sb l) by (destruct Hb as [_ Hb]; now apply nth_error_In in Hb).
    destruct (E sa Ea) as [Qa _], (E sb Eb) as [Qb _]. rewrite (plain sb Qb) in *.
    pose proof (at_index_app l [sa ++ sb]%list _ _ Ha) as Ha'. pose proof (at_index_app l [sa ++ sb]%list _ _ Hb) as Hb'.
    split.
    - apply (merge_words_segs (l ++ [sa ++ sb]) units m (zlen l) sa sb Ha' Hb' (at_index_snoc _ _) (ts_words s)); [|exact Hw].
      clear - W. induction W; constructor; auto using segs_mono.
    - intros x Hx. apply in_app_or in Hx as [Hx|[<-|[]]]; [exact (E x Hx)|]. split; [apply Forall_app; auto|]. right.
      destruct (still_there_true _ _ St) as (k & w & Nk & Ad). destruct (f2_nth_l _ _ _ _ _ W Nk) as (us & Nu & Sg).
      destruct (tm_pair m) as [c1 c2]. cbn [fst snd] in *.
      destruct (segs_adjacent l c1 c2 sa sb Ha Hb w us Sg Ad) as (a & u & c & X & Y & Z0). exists us, a, u, c.
      split; [now apply nth_error_In in Nu|auto].
  Qed.

  Lemma train_loop_text f : forall s r, text_inv s -> train_loop pick cf counts f s = Ok r -> text_inv r.
  Proof.
    induction f as [|f IH]; intros s r I; [discriminate|]. cbn [train_loop].
    destruct (_ <=? _). { now intros [= <-]. }
    destruct (ts_queue s) as [|q0 qs] eqn:Eq. { now intros [= <-]. }
    rewrite <- Eq. destruct (nth_error (ts_queue s) (pick (ts_queue s))) as [m|]; [|discriminate].
    destruct (negb (_ =? _)). { apply IH. exact I. }
    destruct (_ || _). { now intros [= <-]. }
    destruct (still_there (ts_words s) m) as [b| | | |] eqn:St; cbn [bind]; try discriminate.
    destruct b; cbn [negb].
    - destruct (do_merge _ _ _ _ _) as [s'| | | |] eqn:D; cbn [bind]; try discriminate. apply IH. exact (do_merge_text s m _ s' I St D).
    - apply IH. exact I.
  Qed.
End Loop.

(** ** The words before merging *)
Definition units_of (addr : nat -> nat -> str) (cf : tcfg) (w : nat) (chars : list str) : list str :=
  map (fun e => char_string addr cf w (length chars) (fst e) (snd e)) (combine (seq 0 (length chars)) chars).
Fixpoint all_units (addr : nat -> nat -> str) (cf : tcfg) (w : nat) (keys : list str) : list (list str) :=
  match keys with [] => [] | k :: keys' => units_of addr cf w (explode k) :: all_units addr cf (S w) keys' end.

Lemma add_token_in t s x : In x (snd (add_token t s)) -> In x (snd t) \/ x = s.
Proof. unfold add_token. destruct (vget s (fst t)); cbn [snd]; [auto|]. intros H. apply in_app_or in H as [H|[H|[]]]; auto. Qed.
Lemma add_token_has t s : tab_ok t -> exists id, vget s (fst (add_token t s)) = Some id /\ at_index (snd (add_token t s)) id s.
Proof.
  intros T. pose proof (tab_ok_add t s T) as T'. destruct (vget s (fst (add_token t s))) as [id|] eqn:E.
  - exists id. split; [reflexivity|]. rewrite (proj2 T') in E. now apply last_index_at.
  - exfalso. unfold add_token in E. destruct (vget s (fst t)) eqn:E1; [congruence|]. cbn [fst] in E. unfold vget in E. rewrite (ag_aset str_eqb str_eqb_eq), str_eqb_refl in E. discriminate.
Qed.
Lemma known_ext t t' c : tab_ok t -> tab_ok t' -> extends t t' -> vget c (fst t) <> None -> vget c (fst t') <> None.
Proof.
  intros T T' [m X] H. rewrite (proj2 T'). rewrite (proj2 T) in H. intros E. apply H. apply last_index_none in E.
  destruct (last_index c (snd t)) as [i|] eqn:L; [|reflexivity]. exfalso. apply E. rewrite X. apply in_or_app. left.
  apply last_index_at in L. destruct L as [_ L]. now apply nth_error_In in L.
Qed.

Section Before.
  Context (addr : nat -> nat -> str) (cf : tcfg).

  Lemma segs_snoc l us syms u id : segs l us syms -> at_index l id u -> segs l (us ++ [u]) (syms ++ [id]).
  Proof.
    intros G A. induction G as [|part us id0 syms N1 A1 G IH]; cbn [app].
    - apply (segs_cons l [u] [] id []); [discriminate| |constructor]. cbn. now rewrite app_nil_r.
    - rewrite <- app_assoc. now constructor.
  Qed.

  Lemma tokenize_chars_text w n l : forall t syms us,
    tab_ok t -> (forall e, In e l -> vget (snd e) (fst t) <> None) -> segs (snd t) us syms ->
    let r := fold_left (fun (s : tables * list Z) (e : nat * str) =>
      let '(t, syms) := s in
      let '(i, c) := e in
      match vget c (fst t) with
      | None => s
      | Some _ =>
          let s' := char_string addr cf w n i c in
          let t' := add_token t s' in
          match vget s' (fst t') with
          | Some id => (t', (syms ++ [id])%list)
          | None => (t', syms)
          end
      end) l (t, syms) in
    let new := map (fun e => char_string addr cf w n (fst e) (snd e)) l in
    tab_ok (fst r) /\ extends t (fst r) /\ segs (snd (fst r)) (us ++ new) (snd r) /\
    (forall x, In x (snd (fst r)) -> In x (snd t) \/ In x new).
  Proof.
    induction l as [|[i c] l IH]; intros t syms us T K G; cbn [fold_left map].
    - cbn. rewrite app_nil_r. auto using extends_refl.
    - destruct (vget c (fst t)) as [id0|] eqn:Ec; [|exfalso; exact (K (i, c) (or_introl eq_refl) Ec)].
      cbn [fst snd]. set (u := char_string addr cf w n i c). destruct (add_token_has t u T) as (id & E & A). rewrite E.
      pose proof (tab_ok_add t u T) as T'. pose proof (extends_add t u) as X. pose proof X as [m Xm].
      destruct (IH (add_token t u) (syms ++ [id])%list (us ++ [u])%list T') as (R1 & R2 & R3 & R4).
      + intros e He. apply (known_ext t); auto. apply K. now right.
      + apply segs_snoc; [|exact A]. rewrite Xm. now apply segs_mono.
      + split; [exact R1|]. split; [eapply extends_trans; eassumption|]. split.
        * rewrite <- app_assoc in R3. exact R3.
        * intros x Hx. destruct (R4 x Hx) as [H|H]; [|right; now right]. apply add_token_in in H as [H| ->]; [now left|right; now left].
  Qed.

  Lemma tokenize_words_text keys : forall w t t' ws, tab_ok t ->
    (forall k c, In k keys -> In c (explode k) -> vget c (fst t) <> None) ->
    tokenize_words addr cf w keys t = (t', ws) ->
    tab_ok t' /\ extends t t' /\ all_segs (snd t') (all_units addr cf w keys) ws /\
    (forall x, In x (snd t') -> In x (snd t) \/ exists us, In us (all_units addr cf w keys) /\ In x us).
  Proof.
    induction keys as [|k keys IH]; intros w t t' ws T K; cbn [tokenize_words all_units].
    - intros [= <- <-]. split; [exact T|]. split; [apply extends_refl|]. split; [constructor|auto].
    - unfold tokenize_chars.
      pose proof (tokenize_chars_text w (length (explode k)) (combine (seq 0 (length (explode k))) (explode k)) t [] [] T) as G.
      cbv zeta in G. destruct (fold_left _ _ (t, [])) as [t1 syms]. cbn [fst snd app] in G.
      destruct G as (T1 & X1 & S1 & N1).
      { intros [i c] He. apply (K k c); [now left|]. now apply in_combine_r in He. }
      { constructor. }
      destruct (tokenize_words addr cf (S w) keys t1) as [t2 ws2] eqn:E. intros [= <- <-].
      destruct (IH (S w) t1 t2 ws2 T1) as (T2 & X2 & S2 & N2); [|exact E|].
      { intros k0 c H1 H2. apply (known_ext t); auto. apply (K k0); [now right|exact H2]. }
      split; [exact T2|]. split; [eapply extends_trans; eassumption|]. split.
      + constructor; [|exact S2]. destruct X2 as [m ->]. now apply segs_mono.
      + intros x Hx. destruct (N2 x Hx) as [H|(us & H1 & H2)].
        * destruct (N1 x H) as [H'|H']; [now left|]. right. eexists. split; [now left|exact H'].
        * right. exists us. split; [now right|exact H2].
  Qed.
End Before.

(** ** All of training *)
Lemma all_units_in addr cf keys : forall w us, In us (all_units addr cf w keys) -> exists k j, In k keys /\ us = units_of addr cf j (explode k).
Proof.
  induction keys as [|k keys IH]; intros w us; cbn [all_units]; [intros []|]. intros [<-|H]; [exists k, w; split; [now left|reflexivity]|].
  destruct (IH _ _ H) as (k0 & j & H1 & H2). exists k0, j. split; [now right|exact H2].
Qed.
Lemma char_string_forall (Q : N -> Prop) addr cf w n i c : (forall a b, Forall Q (addr a b)) -> Forall Q c -> Forall Q (char_string addr cf w n i c).
Proof.
  intros A C. unfold char_string. destruct (i =? n - 1)%nat; [destruct (tc_suffix cf)|destruct (i =? 0)%nat; [destruct (tc_prefix cf)|]]; auto; apply Forall_app; auto.
Qed.
Lemma concat_forall (Q : N -> Prop) (l : list str) : Forall (Forall Q) l -> Forall Q (concat l).
Proof. induction 1; cbn; [constructor|]. apply Forall_app. auto. Qed.

Section Whole.
  Context (addr : nat -> nat -> str) (pick : list tmerge -> nat) (cf : tcfg) (arrival : list nat) (wc : list (str * Z)) (Q : N -> Prop).
  Hypothesis no_limit : tc_limit cf = None.
  Hypothesis plain : forall x, Forall Q x -> strip_prefix (tc_prefix cf) x = x.
  Hypothesis words_Q : forall w n, In (w, n) wc -> Forall Q w.
  Hypothesis initial_Q : forall c, In c (tc_initial cf) -> Forall Q c.
  Hypothesis addr_Q : forall a b, Forall Q (addr a b).
  Let keys := sort_strs (map fst wc).

  Lemma train_text fuel t news : train_bpe addr pick cf arrival wc fuel = Ok (t, news) ->
    forall x, In x (snd t) -> Forall Q x /\ (initial_char cf wc x \/ run_of (all_units addr cf 0 keys) x).
  Proof.
    assert (lim : limit_ok cf) by (intros l; rewrite no_limit; discriminate).
    unfold train_bpe, train_start. destruct (compute_alphabet_ok cf wc lim) as (t0 & kept & rest & E & T & K1 & K2 & K3 & K4).
    rewrite E. cbn [bind]. rewrite no_limit in K4.
    assert (R : rest = []). { rewrite K2 in K4. unfold zlen in K4. rewrite app_length in K4. destruct rest; [reflexivity|cbn in K4; lia]. }
    subst rest. rewrite app_nil_r in K2. destruct (alphabet_keys_spec cf wc) as [_ AK].
    destruct t0 as [v l]. cbn [snd] in K1. subst l. fold keys.
    destruct (tokenize_words addr cf 0 keys (v, kept)) as [t' words] eqn:Ew.
    assert (IK : forall k, In k keys -> exists n, In (k, n) wc).
    { intros k Hk. unfold keys in Hk. pose proof (Permutation.Permutation_in k (sort_strs_perm (map fst wc)) Hk) as H. apply in_map_iff in H as ([k' n] & <- & H). now exists n. }
    assert (CH : forall k c, In k keys -> In c (explode k) -> initial_char cf wc c).
    { intros k c Hk Hc. destruct (IK k Hk) as [n H]. left. exists k, n. split; [exact H|]. exists (explode k). split; [apply explode_characters|exact Hc]. }
    destruct (tokenize_words_text addr cf keys 0 (v, kept) t' words T) as (T' & X & S & N); [|exact Ew|].
    { intros k c Hk Hc. cbn [fst]. rewrite (proj2 T). intros L. apply last_index_none in L. apply L. cbn [snd]. rewrite <- K2. apply AK. eauto. }
    set (counts := map _ keys). destruct (count_pairs arrival words counts) as [pc pw]. cbn [bind fst snd].
    assert (IQ : forall c, initial_char cf wc c -> Forall Q c).
    { intros c [(w & n & H1 & cs & H2 & H3)|H]; [|auto]. specialize (words_Q w n H1). rewrite <- (characters_concat _ _ H2) in words_Q.
      apply Forall_forall. intros b Hb. rewrite Forall_forall in words_Q. apply words_Q. apply in_concat. eauto. }
    assert (UQ : forall us x, In us (all_units addr cf 0 keys) -> In x us -> Forall Q x).
    { intros us x H1 H2. apply all_units_in in H1 as (k & j & Hk & ->). unfold units_of in H2. apply in_map_iff in H2 as ([i c] & <- & H2). cbn [fst snd].
      apply char_string_forall; [exact addr_Q|]. apply IQ. apply (CH k); [exact Hk|]. now apply in_combine_r in H2. }
    destruct (train_loop pick cf counts fuel _) as [r| | | |] eqn:EL; cbn [bind]; try discriminate. intros [= <- <-].
    apply (train_loop_text pick cf counts (all_units addr cf 0 keys) (initial_char cf wc) Q plain) in EL; [exact (proj2 EL)|].
    split; cbn [ts_tab ts_words]; [exact S|]. intros x Hx. destruct (N x Hx) as [H|(us & H1 & H2)].
    - cbn [snd] in H. rewrite <- K2 in H. apply AK in H. split; [now apply IQ|now left].
    - split; [exact (UQ us x H1 H2)|]. right. apply in_split in H2 as (a & c & ->). exists (a ++ x :: c)%list, a, [x], c.
      split; [exact H1|]. split; [reflexivity|]. split; [discriminate|]. cbn. now rewrite app_nil_r.
  Qed.
End Whole.

Lemma units_plain addr cf w chars : tc_prefix cf = None -> tc_suffix cf = None -> units_of addr cf w chars = chars.
Proof.
  intros P S. unfold units_of. erewrite map_ext; [|intros e; apply (char_string_plain addr cf P S)].
  assert (G : forall i, map snd (combine (seq i (length chars)) chars) = chars); [|apply G].
  induction chars as [|c l IH]; intros i; [reflexivity|]. cbn. now rewrite IH.
Qed.
(** With a prefix and no suffix: the address in front of the first character, if there is
    more than one. *)
Lemma units_prefix addr cf w chars p : tc_prefix cf = Some p -> tc_suffix cf = None ->
  units_of addr cf w chars = match chars with c :: d :: l => (addr w 0%nat ++ c)%list :: d :: l | l => l end.
Proof.
  intros P Sf. destruct chars as [|c [|d l]].
  - reflexivity.
  - unfold units_of. cbn. unfold char_string. cbn. now rewrite Sf.
  - unfold units_of. remember (length (c :: d :: l)) as n eqn:En. replace (seq 0 n) with (0%nat :: seq 1 (length (d :: l))) by (subst n; reflexivity). cbn [combine map fst snd].
    f_equal.
    + unfold char_string. rewrite En. cbn [length]. replace (0 =? S (S (length l)) - 1)%nat with false by (symmetry; apply Nat.eqb_neq; lia). cbn [Nat.eqb]. rewrite P. reflexivity.
    + assert (G : forall i m, (0 < i)%nat -> map (fun e => char_string addr cf w n (fst e) (snd e)) (combine (seq i (length m)) m) = m).
      { intros i m. revert i. induction m as [|x m IH]; intros i H; [reflexivity|]. cbn [length seq combine map fst snd]. rewrite IH by lia. f_equal.
        unfold char_string. rewrite Sf. destruct (i =? n - 1)%nat; [reflexivity|]. destruct (Nat.eqb_spec i 0); [lia|reflexivity]. }
      apply (G 1%nat (d :: l)). lia.
Qed.

(** The vocabulary holds the entries. *)
Lemma trained_entry addr pick cf arrival wc fuel t news s : limit_ok cf -> picks_highest pick ->
  train_bpe addr pick cf arrival wc fuel = Ok (t, news) -> vget s (b_vocab (trained_model cf (t, news))) <> None -> In s (snd t).
Proof.
  intros L P D H. destruct (train_facts addr pick cf arrival wc L P fuel t news D) as [base [[_ T] _]].
  cbn [trained_model b_vocab fst] in H. rewrite T in H. destruct (last_index s (snd t)) as [i|] eqn:E; [|congruence].
  apply last_index_at in E. destruct E as [_ E]. now apply nth_error_In in E.
Qed.
