(** Proofs about BPE training (C47). *)
From Verif Require Import Base BaseProofs SliceModel SliceProofs BatchProofs Utf8Model BpeModel DecoderModel
  DecoderSpec DecoderProofs
  TrainerModel TrainerSpec TrainerCountProofs.
From Coq Require Import Permutation.
Open Scope Z_scope.

(** ** The two tables *)
Lemma last_index_snoc s l x :
  last_index s (l ++ [x]) = if str_eqb s x then Some (zlen l) else last_index s l.
Proof.
  induction l as [|y l IH]; cbn [app last_index].
  - destruct (str_eqb s x); reflexivity.
  - rewrite IH. destruct (str_eqb s x).
    + f_equal. unfold zlen. cbn [length]. lia.
    + reflexivity.
Qed.

Lemma last_index_at s l i : last_index s l = Some i -> at_index l i s.
Proof.
  revert i; induction l as [|y l IH]; intros i; [discriminate|]. cbn [last_index].
  destruct (last_index s l) as [j|].
  - intros [= <-]. destruct (IH j eq_refl) as [H1 H2]. split; [lia|].
    replace (Z.to_nat (j + 1)) with (S (Z.to_nat j)) by lia. exact H2.
  - destruct (str_eqb s y) eqn:E; intros [= <-]. apply str_eqb_eq in E. subst. split; [lia|reflexivity].
Qed.

Lemma last_index_none s l : last_index s l = None -> ~ In s l.
Proof.
  induction l as [|y l IH]; [tauto|]. cbn [last_index]. destruct (last_index s l); [discriminate|].
  destruct (str_eqb s y) eqn:E; [discriminate|]. intros _ [->|H].
  - rewrite str_eqb_refl in E. discriminate.
  - now apply IH.
Qed.

Lemma at_index_lt l i s : at_index l i s -> 0 <= i < zlen l.
Proof. intros [H1 H2]. unfold zlen. assert (Z.to_nat i < length l)%nat by (apply nth_error_Some; congruence). lia. Qed.

Lemma at_index_app l m i s : at_index l i s -> at_index (l ++ m) i s.
Proof.
  intros H. pose proof (at_index_lt _ _ _ H). destruct H as [H1 H2]. split; [exact H1|].
  rewrite nth_error_app1; [exact H2|]. unfold zlen in *. lia.
Qed.

Lemma at_index_snoc l s : at_index (l ++ [s]) (zlen l) s.
Proof. unfold zlen. split; [lia|]. rewrite Nat2Z.id, nth_error_app2, Nat.sub_diag by lia. reflexivity. Qed.

Lemma at_index_zindex l i s : at_index l i s -> zindex l i = Ok s.
Proof. intros [H1 H2]. unfold zindex. destruct (Z.leb_spec 0 i); [|lia]. now rewrite H2. Qed.

Lemma zindex_at l i s : zindex l i = Ok s -> at_index l i s.
Proof.
  unfold zindex. destruct (Z.leb_spec 0 i); [|discriminate].
  destruct (nth_error l (Z.to_nat i)) eqn:E; [|discriminate]. intros [= ->]. split; assumption.
Qed.

Lemma nodup_last_index l : NoDup l -> forall i s, at_index l i s -> last_index s l = Some i.
Proof.
  intros ND i s H. destruct (last_index s l) as [j|] eqn:E.
  - apply last_index_at in E. destruct H as [H1 H2], E as [E1 E2]. f_equal.
    assert (Z.to_nat j = Z.to_nat i); [|lia].
    apply (proj1 (NoDup_nth_error l)); [exact ND| |congruence]. apply nth_error_Some. congruence.
  - apply last_index_none in E. destruct H as [_ H]. apply nth_error_In in H. contradiction.
Qed.

Definition tab_ok (t : tables) : Prop :=
  NoDup (map fst (fst t)) /\ forall s, vget s (fst t) = last_index s (snd t).

Lemma tab_ok_nil : tab_ok ([], []).
Proof. split; [constructor|reflexivity]. Qed.

Lemma tab_ok_set v l s : tab_ok (v, l) -> tab_ok (aset str_eqb s (zlen l) v, (l ++ [s])%list).
Proof.
  intros [ND H]. split; cbn [fst snd] in *.
  - apply (aset_nodup str_eqb str_eqb_eq). exact ND.
  - intros x. unfold vget. rewrite (ag_aset str_eqb str_eqb_eq), last_index_snoc.
    destruct (str_eqb x s); [reflexivity|apply H].
Qed.

Lemma tab_ok_add t s : tab_ok t -> tab_ok (add_token t s).
Proof.
  intros H. unfold add_token. destruct (vget s (fst t)); [exact H|]. destruct t. apply tab_ok_set. exact H.
Qed.

Definition extends (t t' : tables) : Prop := exists m, snd t' = (snd t ++ m)%list.
Lemma extends_refl t : extends t t.
Proof. exists []. now rewrite app_nil_r. Qed.
Lemma extends_trans a b c : extends a b -> extends b c -> extends a c.
Proof. intros [m E] [k F]. exists (m ++ k)%list. rewrite F, E. now rewrite <- app_assoc. Qed.
Lemma extends_add t s : extends t (add_token t s).
Proof. unfold add_token. destruct (vget s (fst t)); [apply extends_refl|]. exists [s]. reflexivity. Qed.

Definition in_range (t : tables) (w : list Z) : Prop := Forall (fun x => 0 <= x < zlen (snd t)) w.
Lemma in_range_ext t t' w : extends t t' -> in_range t w -> in_range t' w.
Proof.
  intros [m E] H. unfold in_range in *. eapply Forall_impl; [|exact H]. intros x Hx. cbn beta in *.
  rewrite E. unfold zlen in *. rewrite app_length. lia.
Qed.

(** ** Characters and words *)
Section Words.
  Context (addr : nat -> nat -> str) (cf : tcfg).

  Lemma tokenize_chars_gen w n l : forall t syms,
    tab_ok t -> in_range t syms ->
    let r := fold_left (fun (s : tables * list Z) (e : nat * str) =>
      let '(t, syms) := s in
      let '(i, c) := e in
      match vget c (fst t) with
      | None => s
      | Some _ =>
          let s' := char_string addr cf w n i c in
          let t' := add_token t s' in
          match vget s' (fst t') with
          | Some id => (t', (syms ++ [id])%list)
          | None => (t', syms)
          end
      end) l (t, syms) in
    tab_ok (fst r) /\ extends t (fst r) /\ in_range (fst r) (snd r).
  Proof.
    induction l as [|[i c] l IH]; intros t syms T R; cbn [fold_left].
    - cbn. auto using extends_refl.
    - destruct (vget c (fst t)) as [id0|]; [|apply IH; assumption].
      set (t' := add_token t (char_string addr cf w n i c)).
      assert (T' : tab_ok t') by (apply tab_ok_add; exact T).
      assert (X : extends t t') by apply extends_add.
      destruct (vget (char_string addr cf w n i c) (fst t')) as [id|] eqn:E.
      + destruct (IH t' (syms ++ [id])%list T') as [A [B C]].
        * apply Forall_app. split; [eapply in_range_ext; eassumption|]. constructor; [|constructor].
          rewrite (proj2 T') in E. apply last_index_at, at_index_lt in E. exact E.
        * split; [exact A|]. split; [eapply extends_trans; eassumption|exact C].
      + destruct (IH t' syms T') as [A [B C]]; [eapply in_range_ext; eassumption|].
        split; [exact A|]. split; [eapply extends_trans; eassumption|exact C].
  Qed.

  Lemma tokenize_words_ok keys : forall w t t' ws,
    tab_ok t -> tokenize_words addr cf w keys t = (t', ws) ->
    tab_ok t' /\ extends t t' /\ Forall (in_range t') ws /\ length ws = length keys.
  Proof.
    induction keys as [|k keys IH]; intros w t t' ws T; cbn.
    - intros [= <- <-]. auto using extends_refl.
    - unfold tokenize_chars.
      pose proof (tokenize_chars_gen w (length (explode k)) (combine (seq 0 (length (explode k))) (explode k)) t [] T) as G.
      cbv zeta in G. destruct (fold_left _ _ (t, [])) as [t1 syms]. cbn [fst snd] in G.
      destruct G as [T1 [X1 R1]]; [constructor|].
      destruct (tokenize_words addr cf (S w) keys t1) as [t2 ws2] eqn:E. intros [= <- <-].
      destruct (IH (S w) t1 t2 ws2 T1 E) as [T2 [X2 [R2 L2]]].
      split; [exact T2|]. split; [eapply extends_trans; eassumption|]. split; [|cbn; congruence].
      constructor; [eapply in_range_ext; eassumption|exact R2].
  Qed.

  Hypothesis no_prefix : tc_prefix cf = None.
  Hypothesis no_suffix : tc_suffix cf = None.

  Lemma char_string_plain w n i c : char_string addr cf w n i c = c.
  Proof. unfold char_string. rewrite no_prefix, no_suffix. destruct (i =? n - 1)%nat, (i =? 0)%nat; reflexivity. Qed.

  Lemma tokenize_words_plain keys : forall w t t' ws,
    tokenize_words addr cf w keys t = (t', ws) -> t' = t.
  Proof.
    induction keys as [|k keys IH]; intros w t t' ws; cbn; [congruence|].
    assert (G : forall n l syms, fst (fold_left (fun (s : tables * list Z) (e : nat * str) =>
      let '(t, syms) := s in
      let '(i, c) := e in
      match vget c (fst t) with
      | None => s
      | Some _ =>
          let s' := char_string addr cf w n i c in
          let t' := add_token t s' in
          match vget s' (fst t') with
          | Some id => (t', (syms ++ [id])%list)
          | None => (t', syms)
          end
      end) l (t, syms)) = t).
    { intros n l. induction l as [|[i c] l IHl]; intros syms; [reflexivity|]. cbn [fold_left].
      destruct (vget c (fst t)) eqn:E; [|apply IHl]. cbv zeta. rewrite char_string_plain.
      unfold add_token. rewrite E. cbn [fst snd]. rewrite E. apply IHl. }
    unfold tokenize_chars.
    specialize (G (length (explode k)) (combine (seq 0 (length (explode k))) (explode k)) []).
    destruct (fold_left _ _ (t, [])) as [t1 syms]. cbn [fst] in G. subst t1.
    destruct (tokenize_words addr cf (S w) keys t) as [t2 ws2] eqn:E. intros [= <- <-]. eapply IH. exact E.
  Qed.
End Words.

(** ** Merging words *)
Lemma merge_syms_range t c1 c2 r w : forall prev, 0 <= r < zlen (snd t) -> in_range t w ->
  in_range t (fst (merge_syms c1 c2 r prev w)).
Proof.
  intros prev Hr. revert prev.
  assert (G : forall n w, (length w <= n)%nat -> forall prev, in_range t w -> in_range t (fst (merge_syms c1 c2 r prev w))).
  { induction n as [|n IH]; intros w0 L prev R.
    - destruct w0; [exact R|cbn in L; lia].
    - destruct w0 as [|a w']; [exact R|]. cbn [merge_syms]. inversion R as [|x y Ra R']; subst.
      destruct w' as [|b rest]; [exact R|]. destruct ((a =? c1) && (b =? c2)).
      + inversion R' as [|x y Rb R'']; subst. specialize (IH rest ltac:(cbn in L; lia) (Some r) R'').
        destruct (merge_syms c1 c2 r (Some r) rest). cbn [fst] in *. constructor; assumption.
      + specialize (IH (b :: rest) ltac:(cbn in *; lia) (Some a) R').
        destruct (merge_syms c1 c2 r (Some a) (b :: rest)). cbn [fst] in *. constructor; assumption. }
  intros prev. apply (G (length w)). lia.
Qed.

Lemma merge_syms_length c1 c2 r w : forall prev,
  (length (fst (merge_syms c1 c2 r prev w)) <= length w)%nat /\
  (In (c1, c2) (adjacent w) -> (length (fst (merge_syms c1 c2 r prev w)) < length w)%nat).
Proof.
  assert (G : forall n w, (length w <= n)%nat -> forall prev,
    (length (fst (merge_syms c1 c2 r prev w)) <= length w)%nat /\
    (In (c1, c2) (adjacent w) -> (length (fst (merge_syms c1 c2 r prev w)) < length w)%nat)).
  { induction n as [|n IH]; intros w0 L prev.
    - destruct w0; [cbn; split; [lia|tauto]|cbn in L; lia].
    - destruct w0 as [|a w']; [cbn; split; [lia|tauto]|]. cbn [merge_syms].
      destruct w' as [|b rest]; [cbn; split; [lia|tauto]|].
      destruct (Z.eqb_spec a c1) as [Ea|Ea]; [destruct (Z.eqb_spec b c2) as [Eb|Eb]|]; cbn [andb].
      + destruct (IH rest ltac:(cbn in L; lia) (Some r)) as [H1 _].
        destruct (merge_syms c1 c2 r (Some r) rest). cbn [fst length] in *. lia.
      + destruct (IH (b :: rest) ltac:(cbn in *; lia) (Some a)) as [H1 H2].
        destruct (merge_syms c1 c2 r (Some a) (b :: rest)). cbn [fst] in *.
        split; [cbn [length] in *; lia|]. intros H.
        change (adjacent (a :: b :: rest)) with ((a, b) :: adjacent (b :: rest)) in H.
        destruct H as [H|H]; [congruence|]. specialize (H2 H). cbn [length] in *. lia.
      + destruct (IH (b :: rest) ltac:(cbn in *; lia) (Some a)) as [H1 H2].
        destruct (merge_syms c1 c2 r (Some a) (b :: rest)). cbn [fst] in *.
        split; [cbn [length] in *; lia|]. intros H.
        change (adjacent (a :: b :: rest)) with ((a, b) :: adjacent (b :: rest)) in H.
        destruct H as [H|H]; [congruence|]. specialize (H2 H). cbn [length] in *. lia. }
  intros prev. apply (G (length w)). lia.
Qed.

Definition symbols (ws : list (list Z)) : nat := fold_right (fun w n => length w + n)%nat 0%nat ws.

Lemma zupd_ok {A} (l : list A) k x : (k < length l)%nat -> zupd l (Z.of_nat k) x = Ok (upd l k x).
Proof.
  intros H. unfold zupd, zlen. destruct (Z.leb_spec 0 (Z.of_nat k)); [|lia].
  destruct (Z.ltb_spec (Z.of_nat k) (Z.of_nat (length l))); [|lia]. cbn [andb].
  now rewrite Nat2Z.id.
Qed.

Lemma zindex_nat {A} (l : list A) k x : nth_error l k = Some x -> zindex l (Z.of_nat k) = Ok x.
Proof. intros H. unfold zindex. destruct (Z.leb_spec 0 (Z.of_nat k)); [|lia]. now rewrite Nat2Z.id, H. Qed.

Lemma symbols_upd ws : forall k w w', nth_error ws k = Some w ->
  (symbols (upd ws k w') + length w = symbols ws + length w')%nat.
Proof.
  induction ws as [|x ws IH]; intros [|k] w w' H; try discriminate; cbn in *.
  - injection H as ->. lia.
  - specialize (IH k w w' H). unfold symbols in IH. lia.
Qed.

(** ** Merging in the words of an entry *)
Lemma merge_words_ok t m newId : 0 <= newId < zlen (snd t) ->
  forall pos ws ch,
  (forall k, In k pos -> (k < length ws)%nat) -> Forall (in_range t) ws ->
  exists ws' ch', foldR (fun (s : list (list Z) * list (((Z * Z) * Z) * nat)) k =>
      do w <- zindex (fst s) (Z.of_nat k);
      let '(w', ch) := merge_syms (fst (tm_pair m)) (snd (tm_pair m)) newId None w in
      do ws <- zupd (fst s) (Z.of_nat k) w';
      Ok (ws, (snd s ++ map (fun c => (c, k)) ch)%list)) pos (ws, ch) = Ok (ws', (ch ++ ch')%list) /\
    length ws' = length ws /\ Forall (in_range t) ws' /\
    (forall e, In e ch' -> In (snd e) pos) /\
    (symbols ws' <= symbols ws)%nat /\
    ((exists k w, In k pos /\ nth_error ws k = Some w /\ In (tm_pair m) (adjacent w)) -> (symbols ws' < symbols ws)%nat).
Proof.
  intros Hn pos. induction pos as [|k pos IH]; intros ws ch B R.
  - exists ws, []. cbn. rewrite app_nil_r. split; [reflexivity|]. split; [reflexivity|].
    split; [exact R|]. split; [intros e []|]. split; [lia|]. intros [k [w [[] _]]].
  - assert (Hk : (k < length ws)%nat) by (apply B; now left).
    destruct (nth_error ws k) as [w|] eqn:Hw; [|apply nth_error_None in Hw; lia].
    cbn [foldR fst snd]. rewrite (zindex_nat ws k w Hw). cbn [bind].
    destruct (tm_pair m) as [c1 c2] eqn:Ep. cbn [fst snd] in *.
    pose proof (merge_syms_range t c1 c2 newId w None Hn) as MR.
    destruct (merge_syms_length c1 c2 newId w None) as [ML1 ML2].
    destruct (merge_syms c1 c2 newId None w) as [w' cw]. cbn [fst] in *.
    rewrite zupd_ok by exact Hk. cbn [bind].
    assert (Rw : in_range t w) by (rewrite Forall_forall in R; apply R; eapply nth_error_In; exact Hw).
    pose proof (symbols_upd ws k w w' Hw) as SU.
    destruct (IH (upd ws k w') (ch ++ map (fun c => (c, k)) cw)%list) as [ws' [ch' [E [L [R' [I [S1 S2]]]]]]].
    + intros j Hj. rewrite upd_length. apply B. now right.
    + apply Forall_forall. intros x Hx. apply In_nth_error in Hx as [j Hj].
      apply upd_nth_split in Hj as [[_ ->]|[_ Hj]]; [apply MR; exact Rw|].
      rewrite Forall_forall in R. apply R. eapply nth_error_In. exact Hj.
    + exists ws', (map (fun c => (c, k)) cw ++ ch')%list.
      split; [rewrite app_assoc; exact E|]. split; [rewrite L; apply upd_length|]. split; [exact R'|]. split.
      { intros e He. apply in_app_or in He as [He|He].
        - apply in_map_iff in He as [c [<- _]]. now left.
        - right. apply I. exact He. }
      split; [lia|]. intros [j [x [[->|Hj] [Hx Ha]]]].
      * assert (x = w) by congruence. subst x. specialize (ML2 Ha). lia.
      * destruct (Nat.eq_dec j k) as [->|N].
        -- assert (x = w) by congruence. subst x. specialize (ML2 Ha). lia.
        -- assert ((symbols ws' < symbols (upd ws k w'))%nat); [|lia]. apply S2. exists j, x.
           split; [exact Hj|]. split; [|exact Ha]. rewrite nth_error_upd_other by exact N. exact Hx.
Qed.

Lemma in_aset {V} p (v : V) m q w : In (q, w) (aset pair_eqb p v m) -> (q = p /\ w = v) \/ In (q, w) m.
Proof.
  induction m as [|[p0 v0] m IH]; cbn.
  - intros [[= <- <-]|[]]. now left.
  - destruct (pair_eqb p p0) eqn:E; intros [H|H].
    + injection H as <- <-. apply pair_eqb_eq in E. subst. now left.
    + right. now right.
    + right. now left.
    + destruct (IH H); [now left|right; now right].
Qed.

(** ** Recording the changes *)
Lemma apply_changes_ok counts ch : forall pc pw,
  (forall e, In e ch -> (snd e < length counts)%nat) ->
  (forall p ks k, In (p, ks) pw -> In k ks -> (k < length counts)%nat) ->
  exists pc' pw', foldR (fun (s : pair_counts * pair_words) e =>
      let '((p, d), k) := e in
      if 0 <? d then
        do c <- zindex counts (Z.of_nat k);
        Ok (pc_add p (d * c) (fst s), pw_add p k (snd s))
      else Ok s) ch (pc, pw) = Ok (pc', pw') /\
    (forall p ks k, In (p, ks) pw' -> In k ks -> (k < length counts)%nat).
Proof.
  induction ch as [|[[p d] k] ch IH]; intros pc pw B W.
  - exists pc, pw. split; [reflexivity|exact W].
  - cbn [foldR]. destruct (0 <? d).
    + assert (Hk : (k < length counts)%nat) by (apply (B ((p, d), k)); now left).
      destruct (nth_error counts k) as [c|] eqn:E; [|apply nth_error_None in E; lia].
      rewrite (zindex_nat counts k c E). cbn [bind fst snd]. apply IH; [intros e He; apply B; now right|].
      unfold pw_add. intros q ks j Hq Hj.
      assert (G : forall (v : list nat) m, In (q, ks) (aset pair_eqb p v m) -> ks = v \/ In (q, ks) m).
      { clear. intros v. induction m as [|[p0 v0] m IH]; cbn.
        - intros [[= <- <-]|[]]. now left.
        - destruct (pair_eqb p p0); intros [H|H].
          + injection H as <- <-. now left.
          + right. now right.
          + right. now left.
          + destruct (IH H); [now left|right; now right]. }
      apply G in Hq as [->|Hq]; [|eapply W; eassumption].
      apply set_add_in in Hj as [->|Hj]; [exact Hk|].
      unfold pw_get in Hj. destruct (aget pair_eqb p pw) as [ks'|] eqn:A; [|destruct Hj].
      apply (ag_in pair_eqb pair_eqb_eq) in A. eapply W; eassumption.
    + cbn [bind]. apply IH; [intros e He; apply B; now right|exact W].
Qed.

(** ** The loop *)
Section Loop.
  Context (pick : list tmerge -> nat) (cf : tcfg) (counts : list Z) (base : Z) (size0 : Z).

  Record linv (s : tstate) : Prop := {
    li_tab : tab_ok (ts_tab s);
    li_words : Forall (in_range (ts_tab s)) (ts_words s);
    li_len : length (ts_words s) = length counts;
    li_pos : forall m k, In m (ts_queue s) -> In k (tm_pos m) -> (k < length counts)%nat;
    li_base : zlen (snd (ts_tab s)) = base + zlen (ts_merges s);
    li_merges : merges_fit (tc_prefix cf) base (snd (ts_tab s)) (ts_merges s);
    li_size : zlen (fst (ts_tab s)) <= Z.max (tc_size cf) size0
  }.

  Lemma still_there_ok words m : (forall k, In k (tm_pos m) -> (k < length words)%nat) ->
    exists b, still_there words m = Ok b /\
      (b = true -> exists k w, In k (tm_pos m) /\ nth_error words k = Some w /\ In (tm_pair m) (adjacent w)).
  Proof.
    unfold still_there. intros B.
    assert (G : forall pos acc, (forall k, In k pos -> (k < length words)%nat) ->
      exists b, foldR (fun found k => do w <- zindex words (Z.of_nat k);
                          Ok (found || existsb (pair_eqb (tm_pair m)) (adjacent w))) pos acc = Ok b /\
      (b = true -> acc = true \/ exists k w, In k pos /\ nth_error words k = Some w /\ In (tm_pair m) (adjacent w))).
    { induction pos as [|k pos IH]; intros acc Bp.
      - exists acc. cbn. auto.
      - cbn [foldR]. assert (Hk : (k < length words)%nat) by (apply Bp; now left).
        destruct (nth_error words k) as [w|] eqn:E; [|apply nth_error_None in E; lia].
        rewrite (zindex_nat words k w E). cbn [bind].
        destruct (IH (acc || existsb (pair_eqb (tm_pair m)) (adjacent w)) (fun j Hj => Bp j (or_intror Hj))) as [b [H1 H2]].
        exists b. split; [exact H1|]. intros Hb. destruct (H2 Hb) as [H|[j [x [Hj H]]]].
        + apply orb_true_iff in H as [H|H]; [now left|]. right. exists k, w. split; [now left|]. split; [exact E|].
          apply existsb_exists in H as [p [Hp H]]. apply pair_eqb_eq in H. now subst.
        + right. exists j, x. split; [now right|exact H]. }
    destruct (G (tm_pos m) false B) as [b [H1 H2]]. exists b. split; [exact H1|]. intros Hb.
    destruct (H2 Hb) as [H|H]; [discriminate|exact H].
  Qed.

  Lemma adjacent_in_range t w a b : in_range t w -> In (a, b) (adjacent w) -> 0 <= a < zlen (snd t) /\ 0 <= b < zlen (snd t).
  Proof.
    unfold adjacent, in_range. rewrite Forall_forall. intros R H. split.
    - apply in_combine_l in H. now apply R.
    - apply in_combine_r in H. apply R. destruct w; [destruct H|now right].
  Qed.

  Lemma at_index_ex l i : 0 <= i < zlen l -> exists s, at_index l i s.
  Proof.
    unfold zlen. intros H. destruct (nth_error l (Z.to_nat i)) as [s|] eqn:E.
    - exists s. split; [lia|exact E].
    - apply nth_error_None in E. lia.
  Qed.

  Lemma strip_prefix_spec p s : without_prefix p s (strip_prefix p s).
  Proof.
    destruct p as [q|]; cbn; [|reflexivity]. destruct (str_eqb q (firstn (length q) s)) eqn:E.
    - left. apply str_eqb_eq in E. rewrite E at 1. symmetry. apply firstn_skipn.
    - right. split; [|reflexivity]. intros t ->. rewrite firstn_app, firstn_all, Nat.sub_diag, firstn_O, app_nil_r, str_eqb_refl in E.
      discriminate.
  Qed.

  Lemma remove_nth_incl {A} i (l : list A) x : In x (remove_nth i l) -> In x l.
  Proof.
    unfold remove_nth. intros H. apply in_app_or in H as [H|H].
    - rewrite <- (firstn_skipn i l). apply in_or_app. now left.
    - rewrite <- (firstn_skipn (S i) l). apply in_or_app. now right.
  Qed.

  Lemma do_merge_ok s m q :
    linv s -> tc_size cf > zlen (fst (ts_tab s)) -> In m (ts_queue s) -> (forall x, In x q -> In x (ts_queue s)) ->
    (exists k w, In k (tm_pos m) /\ nth_error (ts_words s) k = Some w /\ In (tm_pair m) (adjacent w)) ->
    exists s', do_merge cf counts m q s = Ok s' /\ linv s' /\ (symbols (ts_words s') < symbols (ts_words s))%nat.
  Proof.
    intros [T W L P B M Sz] Room Hm Hq Ex. unfold do_merge.
    destruct (ts_tab s) as [v l] eqn:Et. cbn [fst snd] in *.
    destruct (tm_pair m) as [c1 c2] eqn:Ep.
    assert (RG : 0 <= c1 < zlen l /\ 0 <= c2 < zlen l).
    { destruct Ex as [k [w [_ [Hw Ha]]]]. rewrite Forall_forall in W.
      apply (adjacent_in_range (v, l) w c1 c2); [|exact Ha]. apply W. eapply nth_error_In. exact Hw. }
    destruct RG as [R1 R2]. cbn [fst snd].
    destruct (at_index_ex l c1 R1) as [sa Ha]. destruct (at_index_ex l c2 R2) as [sb Hb].
    rewrite (at_index_zindex l c1 sa Ha), (at_index_zindex l c2 sb Hb). cbn [bind].
    set (tok := (sa ++ strip_prefix (tc_prefix cf) sb)%list).
    set (t' := (aset str_eqb tok (zlen l) v, (l ++ [tok])%list)).
    assert (T' : tab_ok t') by (apply tab_ok_set; exact T).
    assert (X : extends (v, l) t') by (exists [tok]; reflexivity).
    assert (NR : 0 <= zlen l < zlen (snd t')).
    { unfold t'. cbn [snd]. unfold zlen. rewrite app_length. cbn [length]. lia. }
    destruct (merge_words_ok t' m (zlen l) NR (tm_pos m) (ts_words s) []) as [ws' [ch' [E [L' [R' [I [S1 S2]]]]]]].
    { intros k Hk. rewrite L. eapply P; eassumption. }
    { eapply Forall_impl; [|exact W]. intros w. apply in_range_ext. exact X. }
    unfold merge_words. rewrite E. cbn [bind fst snd app].
    destruct (apply_changes_ok counts ch' (ts_counts s) []) as [pc' [pw' [E2 W2]]].
    { intros e He. apply I in He. eapply P; eassumption. }
    { intros p ks k []. }
    unfold apply_changes. rewrite E2. cbn [bind fst snd]. fold tok. fold t'.
    eexists. split; [reflexivity|]. split.
    - constructor; cbn [ts_tab ts_words ts_counts ts_queue ts_merges].
      + exact T'.
      + exact R'.
      + now rewrite L'.
      + intros x k Hx Hk. apply in_app_or in Hx as [Hx|Hx].
        * eapply P; [apply Hq; exact Hx|exact Hk].
        * unfold new_entries in Hx. apply in_flat_map in Hx as [[p ks] [He Hx]]. cbn [fst snd] in Hx.
          destruct (true && (pc_get p pc' <=? 0)); [destruct Hx|]. destruct Hx as [<-|[]]. cbn [tm_pos] in Hk.
          eapply W2; eassumption.
      + unfold t'. cbn [snd]. unfold zlen in *. rewrite !app_length. cbn [length]. lia.
      + intros i a b id Hi. unfold t'. cbn [snd].
        destruct (Nat.lt_ge_cases i (length (ts_merges s))) as [Lt|Ge].
        * rewrite nth_error_app1 in Hi by exact Lt. destruct (M i a b id Hi) as [M1 [M2 [M3 [x [y [z [A1 [A2 [A3 A4]]]]]]]]].
          split; [exact M1|]. split; [exact M2|]. split; [exact M3|]. exists x, y, z.
          auto using at_index_app.
        * rewrite nth_error_app2 in Hi by exact Ge.
          destruct (i - length (ts_merges s))%nat as [|j] eqn:Ej; [|destruct j; discriminate].
          cbn in Hi. injection Hi as <- <- <-.
          split; [unfold zlen in *; lia|]. split; [lia|]. split; [lia|].
          exists sa, sb, (strip_prefix (tc_prefix cf) sb).
          split; [now apply at_index_app|]. split; [now apply at_index_app|]. split; [apply strip_prefix_spec|apply at_index_snoc].
      + unfold t'. cbn [fst]. pose proof (aset_len str_eqb str_eqb_eq v tok (zlen l)) as AL.
        destruct (in_keys_dec _ _ _ _) in AL; unfold zlen in *; lia.
    - cbn [ts_words]. apply S2. rewrite Ep. exact Ex.
  Qed.

  Hypothesis pick_max : picks_highest pick.

  Definition stale (c : Z) (pc : pair_counts) (q : list tmerge) : nat :=
    length (filter (fun e => (tm_count e =? c) && negb (tm_count e =? pc_get (tm_pair e) pc)) q).

  Lemma remove_nth_perm {A} (l : list A) i x : nth_error l i = Some x -> Permutation l (x :: remove_nth i l).
  Proof.
    intros H. apply nth_error_split in H as [l1 [l2 [-> E]]]. unfold remove_nth.
    rewrite firstn_app, <- E, firstn_all, Nat.sub_diag, firstn_O, app_nil_r.
    rewrite skipn_app, skipn_all2 by lia. replace (S (length l1) - length l1)%nat with 1%nat by lia. cbn [app skipn].
    apply Permutation_sym, Permutation_middle.
  Qed.

  Lemma stale_perm c pc a b : Permutation a b -> stale c pc a = stale c pc b.
  Proof.
    intros P. unfold stale. apply Permutation_length. induction P; cbn.
    - constructor.
    - destruct (_ && _); [now constructor|assumption].
    - destruct (_ && _); destruct (_ && _); try reflexivity. apply perm_swap.
    - eapply Permutation_trans; eassumption.
  Qed.

  Lemma stale_refresh pc m q :
    tm_count m <> pc_get (tm_pair m) pc ->
    (stale (tm_count m) (aset pair_eqb (tm_pair m) (tm_count m) pc) (m :: q) < stale (tm_count m) pc (m :: q))%nat.
  Proof.
    intros N.
    assert (G : forall x, pc_get x (aset pair_eqb (tm_pair m) (tm_count m) pc)
               = if pair_eqb x (tm_pair m) then tm_count m else pc_get x pc).
    { intros x. unfold pc_get at 1. rewrite (ag_aset pair_eqb pair_eqb_eq). destruct (pair_eqb x (tm_pair m)); reflexivity. }
    unfold stale. cbn [filter]. rewrite G, pair_eqb_refl, Z.eqb_refl. cbn [negb andb].
    destruct (Z.eqb_spec (tm_count m) (pc_get (tm_pair m) pc)); [contradiction|]. cbn [negb andb length].
    apply Nat.lt_succ_r. clear n. induction q as [|e q IH]; [cbn; lia|]. cbn [filter]. rewrite G.
    destruct (Z.eqb_spec (tm_count e) (tm_count m)) as [E|E]; cbn [andb]; [|exact IH].
    destruct (pair_eqb (tm_pair e) (tm_pair m)) eqn:Pe.
    - rewrite E, Z.eqb_refl. cbn [negb]. destruct (negb _); cbn [length]; lia.
    - destruct (negb _); cbn [length]; lia.
  Qed.

  Lemma loop_total : forall N s, (symbols (ts_words s) <= N)%nat -> linv s ->
    exists fuel r, train_loop pick cf counts fuel s = Ok r /\ linv r.
  Proof.
    induction N as [N IHN] using lt_wf_ind. intros s0 LN0 I0.
    (* on the length of the queue *)
    remember (length (ts_queue s0)) as K eqn:EK. assert (LK : (length (ts_queue s0) <= K)%nat) by lia. clear EK.
    revert s0 LN0 I0 LK. induction K as [|K IHK]; intros s LN I LK.
    { destruct (ts_queue s) eqn:Eq; [|cbn in LK; lia]. exists 1%nat, s. split; [|exact I].
      cbn [train_loop]. rewrite Eq. destruct (tc_size cf <=? zlen (fst (ts_tab s))); reflexivity. }
    (* on the number of stale entries with the highest count *)
    destruct (list_eq_dec (fun a b : tmerge => ltac:(decide equality; try apply (list_eq_dec Nat.eq_dec); try apply Z.eq_dec;
       decide equality; apply Z.eq_dec) : {a = b} + {a <> b}) (ts_queue s) []) as [Q0|Q0].
    { exists 1%nat, s. split; [|exact I]. cbn [train_loop]. rewrite Q0.
      destruct (tc_size cf <=? zlen (fst (ts_tab s))); reflexivity. }
    destruct (pick_max (ts_queue s) Q0) as [m0 [Hm0 Max0]].
    remember (stale (tm_count m0) (ts_counts s) (ts_queue s)) as D eqn:ED.
    assert (LD : (stale (tm_count m0) (ts_counts s) (ts_queue s) <= D)%nat) by lia. clear ED.
    assert (TOP : (forall e, In e (ts_queue s) -> tm_count e <= tm_count m0) /\ exists e, In e (ts_queue s) /\ tm_count e = tm_count m0).
    { split; [exact Max0|]. exists m0. split; [eapply nth_error_In; exact Hm0|reflexivity]. }
    clear Hm0 Max0. revert s LN I LK Q0 LD TOP. induction D as [|D IHD]; intros s LN I LK Q0 LD TOP.
    all: destruct (pick_max (ts_queue s) Q0) as [m [Hm Max]].
    all: assert (Cm : tm_count m = tm_count m0)
      by (destruct TOP as [T1 [e [T2 T3]]]; pose proof (T1 m (nth_error_In _ _ Hm)); pose proof (Max e T2); lia).
    all: pose proof (remove_nth_perm _ _ _ Hm) as PR.
    all: set (q := remove_nth (pick (ts_queue s)) (ts_queue s)) in *.
    all: assert (Lq : (length q <= K)%nat) by (apply Permutation_length in PR; cbn in PR; lia).
    all: assert (Inq : forall x, In x q -> In x (ts_queue s)) by (intros x Hx; eapply remove_nth_incl; exact Hx).
    all: assert (Hmin : In m (ts_queue s)) by (eapply nth_error_In; exact Hm).
    all: destruct (Z.leb_spec (tc_size cf) (zlen (fst (ts_tab s)))) as [Full|Room];
      [exists 1%nat, s; split; [|exact I]; cbn [train_loop]; destruct (Z.leb_spec (tc_size cf) (zlen (fst (ts_tab s)))); [reflexivity|lia]|].
    all: assert (STEP : forall fuel, train_loop pick cf counts (S fuel) s =
        if negb (tm_count m =? pc_get (tm_pair m) (ts_counts s)) then
          train_loop pick cf counts fuel (TS (ts_tab s) (ts_words s) (aset pair_eqb (tm_pair m) (tm_count m) (ts_counts s)) (q ++ [m])%list (ts_merges s))
        else if (tm_count m <? 1) || (tm_count m <? tc_min cf) then Ok s
        else do there <- still_there (ts_words s) m;
             if negb there then train_loop pick cf counts fuel (TS (ts_tab s) (ts_words s) (ts_counts s) q (ts_merges s))
             else do s' <- do_merge cf counts m q s; train_loop pick cf counts fuel s')
      by (intros fuel; cbn [train_loop]; destruct (Z.leb_spec (tc_size cf) (zlen (fst (ts_tab s)))); [lia|];
          rewrite Hm; destruct (ts_queue s) eqn:EQ; [congruence|reflexivity]).
    all: assert (REST : tm_count m = pc_get (tm_pair m) (ts_counts s) ->
        exists fuel r, train_loop pick cf counts fuel s = Ok r /\ linv r).
    1, 3: intros Eq; pose proof Eq as Eqb; apply Z.eqb_eq in Eqb;
      destruct ((tm_count m <? 1) || (tm_count m <? tc_min cf)) eqn:Low;
      [exists 1%nat, s; rewrite STEP, Eqb; cbn [negb]; rewrite ?Low; split; [reflexivity|exact I]|];
      destruct (still_there_ok (ts_words s) m) as [b [Eb Hb]];
        [intros k Hk; rewrite (li_len _ I); eapply (li_pos _ I); eassumption|];
      destruct b;
      [ destruct (do_merge_ok s m q I ltac:(lia) Hmin Inq (Hb eq_refl)) as [s' [E1 [I1 S1]]];
        destruct (IHN (symbols (ts_words s')) ltac:(lia) s' (le_n _) I1) as [fuel [r [E2 I2]]];
        exists (S fuel), r; rewrite STEP, Eqb; cbn [negb]; rewrite ?Low, Eb; cbn [negb bind]; rewrite E1; cbn [bind]; split; [exact E2|exact I2]
      | destruct (IHK (TS (ts_tab s) (ts_words s) (ts_counts s) q (ts_merges s))) as [fuel [r [E2 I2]]];
        [ exact LN
        | destruct I as [A1 A2 A3 A4 A5 A6 A7]; constructor; cbn [ts_tab ts_words ts_counts ts_queue ts_merges]; auto;
          intros x k Hx Hk; eapply A4; [apply Inq; exact Hx|exact Hk]
        | exact Lq
        | exists (S fuel), r; rewrite STEP, Eqb; cbn [negb]; rewrite ?Low, Eb; cbn [negb bind]; split; [exact E2|exact I2] ] ].
    - (* no stale entry at the top *)
      apply REST. destruct (Z.eq_dec (tm_count m) (pc_get (tm_pair m) (ts_counts s))) as [E|E]; [exact E|exfalso].
      assert (F : In m (filter (fun e => (tm_count e =? tm_count m0) && negb (tm_count e =? pc_get (tm_pair e) (ts_counts s))) (ts_queue s))).
      { apply filter_In. split; [exact Hmin|]. rewrite Cm, Z.eqb_refl. rewrite <- Cm.
        destruct (Z.eqb_spec (tm_count m) (pc_get (tm_pair m) (ts_counts s))); [contradiction|reflexivity]. }
      unfold stale in LD. destruct (filter _ (ts_queue s)); [destruct F|cbn in LD; lia].
    - destruct (Z.eq_dec (tm_count m) (pc_get (tm_pair m) (ts_counts s))) as [E|E]; [apply REST; exact E|].
      set (s1 := TS (ts_tab s) (ts_words s) (aset pair_eqb (tm_pair m) (tm_count m) (ts_counts s)) (q ++ [m])%list (ts_merges s)).
      assert (PQ : Permutation (q ++ [m]) (ts_queue s)).
      { eapply Permutation_trans; [apply Permutation_sym, Permutation_cons_append|apply Permutation_sym; exact PR]. }
      destruct (IHD s1) as [fuel [r [E2 I2]]].
      + exact LN.
      + destruct I as [A1 A2 A3 A4 A5 A6 A7]; constructor; cbn [s1 ts_tab ts_words ts_counts ts_queue ts_merges]; auto.
        intros x k Hx Hk. eapply A4; [|exact Hk]. eapply Permutation_in; [exact PQ|exact Hx].
      + cbn [s1 ts_queue]. apply Permutation_length in PQ. lia.
      + cbn [s1 ts_queue]. intros H. symmetry in H. now apply app_cons_not_nil in H.
      + cbn [s1 ts_queue ts_counts]. rewrite <- Cm.
        rewrite (stale_perm _ _ (q ++ [m]) (m :: q)) by (apply Permutation_sym, Permutation_cons_append).
        pose proof (stale_refresh (ts_counts s) m q E) as SR.
        rewrite <- Cm, (stale_perm _ _ _ _ PR) in LD. lia.
      + cbn [s1 ts_queue]. destruct TOP as [T1 [e [T2 T3]]]. split.
        * intros x Hx. apply T1. eapply Permutation_in; [exact PQ|exact Hx].
        * exists e. split; [|exact T3]. eapply Permutation_in; [apply Permutation_sym; exact PQ|exact T2].
      + exists (S fuel), r. rewrite STEP. destruct (Z.eqb_spec (tm_count m) (pc_get (tm_pair m) (ts_counts s))); [contradiction|].
        cbn [negb]. split; [exact E2|exact I2].
  Qed.
End Loop.

(** ** The start *)
Lemma insert_str_perm x l : Permutation (insert_str x l) (x :: l).
Proof.
  induction l as [|y l IH]; cbn; [constructor; constructor|]. destruct (str_leb x y); [apply Permutation_refl|].
  eapply Permutation_trans; [apply perm_skip; exact IH|apply perm_swap].
Qed.
Lemma sort_strs_perm l : Permutation (sort_strs l) l.
Proof.
  induction l as [|x l IH]; cbn; [constructor|].
  eapply Permutation_trans; [apply insert_str_perm|]. now apply perm_skip.
Qed.

Lemma add_str_in l s x : In x (add_str l s) <-> x = s \/ In x l.
Proof.
  unfold add_str. destruct (existsb (str_eqb s) l) eqn:E.
  - split; [tauto|]. intros [->|H]; [|exact H]. apply existsb_exists in E as [y [Hy E]]. apply str_eqb_eq in E. now subst.
  - rewrite in_app_iff. cbn. split; intros [H|H]; auto; destruct H as [H|[]]; auto.
Qed.
Lemma add_str_nodup l s : NoDup l -> NoDup (add_str l s).
Proof.
  intros H. unfold add_str. destruct (existsb (str_eqb s) l) eqn:E; [exact H|].
  apply (Permutation_NoDup (l := s :: l)); [apply Permutation_cons_append|]. constructor; [|exact H].
  intros I. assert (existsb (str_eqb s) l = true); [|congruence].
  apply existsb_exists. exists s. split; [exact I|apply str_eqb_refl].
Qed.
Lemma fold_add_str l : forall acc, NoDup acc ->
  NoDup (fold_left add_str l acc) /\ forall x, In x (fold_left add_str l acc) <-> In x l \/ In x acc.
Proof.
  induction l as [|s l IH]; intros acc H; cbn [fold_left]; [split; [exact H|cbn; tauto]|].
  destruct (IH _ (add_str_nodup acc s H)) as [A B]. split; [exact A|]. intros x. rewrite B, add_str_in. cbn. intuition (subst; auto).
Qed.

Lemma alphabet_keys_spec cf wc : NoDup (alphabet_keys cf wc) /\
  forall c, In c (alphabet_keys cf wc) <-> initial_char cf wc c.
Proof.
  unfold alphabet_keys. set (l := (flat_map _ wc ++ tc_initial cf)%list).
  destruct (fold_add_str l [] ltac:(constructor)) as [A B]. pose proof (sort_strs_perm (fold_left add_str l [])) as P. split.
  - eapply Permutation_NoDup; [apply Permutation_sym; exact P|exact A].
  - intros c. split.
    + intros H. apply (Permutation_in _ P) in H. apply B in H as [H|[]]. unfold l in H. apply in_app_or in H as [H|H].
      * left. apply in_flat_map in H as [[w n] [H1 H2]]. exists w, n. split; [exact H1|].
        exists (explode w). split; [apply explode_characters|exact H2].
      * now right.
    + intros H. apply (Permutation_in _ (Permutation_sym P)). apply B. left. unfold l. apply in_or_app. destruct H as [[w [n [H1 [cs [H2 H3]]]]]|H].
      * left. apply in_flat_map. exists (w, n). split; [exact H1|]. cbn [fst].
        now rewrite (characters_fun _ _ _ (explode_characters w) H2).
      * now right.
Qed.

Lemma add_tokens_nodup kept : forall t, tab_ok t -> NoDup kept -> (forall s, In s kept -> ~ In s (snd t)) ->
  snd (fold_left add_token kept t) = (snd t ++ kept)%list /\ tab_ok (fold_left add_token kept t).
Proof.
  induction kept as [|s kept IH]; intros t T ND D; cbn [fold_left]; [now rewrite app_nil_r|].
  inversion ND as [|x y N1 N2]; subst.
  assert (E : snd (add_token t s) = (snd t ++ [s])%list).
  { unfold add_token. destruct (vget s (fst t)) as [i|] eqn:V; [|reflexivity]. exfalso.
    rewrite (proj2 T) in V. apply last_index_at in V. destruct V as [_ V]. apply nth_error_In in V.
    apply (D s); [now left|exact V]. }
  destruct (IH (add_token t s) (tab_ok_add _ _ T) N2) as [A B].
  - intros x Hx. rewrite E. intros I. apply in_app_or in I as [I|[<-|[]]]; [|contradiction].
    apply (D x); [now right|exact I].
  - split; [|exact B]. rewrite A, E, <- app_assoc. reflexivity.
Qed.

Lemma kept_chars_ok cf keys : limit_ok cf ->
  kept_chars cf keys = Ok (match tc_limit cf with
                           | Some l => if l <? zlen keys then firstn (Z.to_nat (zlen keys - l)) keys else keys
                           | None => keys end).
Proof.
  intros L. unfold kept_chars. destruct (tc_limit cf) as [l|] eqn:El; [|reflexivity]. specialize (L l El).
  destruct (Z.ltb_spec l (zlen keys)) as [H|H]; [|reflexivity].
  unfold zslice, zlen in *. cbn [Z.leb]. destruct (Z.leb_spec 0 0); [|lia].
  destruct (Z.leb_spec 0 (Z.of_nat (length keys) - l)); [|lia].
  destruct (Z.leb_spec (Z.of_nat (length keys) - l) (Z.of_nat (length keys))); [|lia]. cbn [andb].
  replace (Z.to_nat 0) with 0%nat by lia. cbn [skipn]. do 2 f_equal. lia.
Qed.

Lemma firstn_nodup {A} n (l : list A) : NoDup l -> NoDup (firstn n l).
Proof.
  revert n. induction l as [|x l IH]; intros [|n] H; cbn; try constructor.
  - inversion H as [|a b N1 N2]; subst. intros I. apply N1. rewrite <- (firstn_skipn n l). apply in_or_app. now left.
  - inversion H; subst. now apply IH.
Qed.

Lemma compute_alphabet_ok cf wc : limit_ok cf ->
  exists t kept rest, compute_alphabet cf wc = Ok t /\ tab_ok t /\ snd t = kept /\
    alphabet_keys cf wc = (kept ++ rest)%list /\ NoDup kept /\
    zlen kept = match tc_limit cf with
                | Some l => if l <? zlen (alphabet_keys cf wc) then zlen (alphabet_keys cf wc) - l else zlen (alphabet_keys cf wc)
                | None => zlen (alphabet_keys cf wc) end.
Proof.
  intros L. unfold compute_alphabet. rewrite kept_chars_ok by exact L. cbn [bind].
  set (keys := alphabet_keys cf wc). assert (ND : NoDup keys) by apply (alphabet_keys_spec cf wc).
  set (n := match tc_limit cf with Some l => if l <? zlen keys then Z.to_nat (zlen keys - l) else length keys | None => length keys end).
  assert (E : (match tc_limit cf with
                           | Some l => if l <? zlen keys then firstn (Z.to_nat (zlen keys - l)) keys else keys
                           | None => keys end) = firstn n keys).
  { unfold n. destruct (tc_limit cf) as [l|]; [|symmetry; apply firstn_all]. destruct (l <? zlen keys); [reflexivity|symmetry; apply firstn_all]. }
  rewrite E. destruct (add_tokens_nodup (firstn n keys) ([], []) tab_ok_nil (firstn_nodup n keys ND) ltac:(cbn; auto)) as [A B].
  eexists _, (firstn n keys), (skipn n keys). split; [reflexivity|]. split; [exact B|]. split; [exact A|].
  split; [symmetry; apply firstn_skipn|]. split; [now apply firstn_nodup|].
  unfold zlen at 1. rewrite firstn_length. unfold n. destruct (tc_limit cf) as [l|] eqn:El; [|unfold zlen; lia].
  specialize (L l El). destruct (Z.ltb_spec l (zlen keys)); unfold zlen in *; lia.
Qed.

Lemma count_pairs_bound arrival words counts p ks k :
  length counts = length words ->
  In (p, ks) (snd (count_pairs arrival words counts)) -> In k ks -> (k < length counts)%nat.
Proof.
  intros L. unfold count_pairs.
  set (ok := fun r : pair_counts * pair_words => forall p ks k, In (p, ks) (snd r) -> In k ks -> (k < length counts)%nat).
  assert (C : forall i j, ok (count_chunk (combine words counts) i j)).
  { intros i j. unfold count_chunk.
    assert (G : forall l s, ok s -> ok (fold_left (fun (s : pair_counts * pair_words) k =>
      match nth_error (combine words counts) k with
      | None => s
      | Some (w, c) =>
          if Z.of_nat i <? zlen w - 1
          then fold_left (fun (s : pair_counts * pair_words) p => (pc_add p c (fst s), pw_add p k (snd s))) (adjacent w) s
          else s
      end) l s)).
    { induction l as [|x l IH]; intros s Hs; [exact Hs|]. cbn [fold_left]. apply IH.
      destruct (nth_error (combine words counts) x) as [[w c]|] eqn:E; [|exact Hs].
      assert (Hx : (x < length counts)%nat).
      { assert (x < length (combine words counts))%nat by (apply nth_error_Some; congruence). rewrite combine_length in *. lia. }
      destruct (_ <? _); [|exact Hs]. clear E IH. revert s Hs. induction (adjacent w) as [|q a IHa]; intros s Hs; [exact Hs|].
      cbn [fold_left]. apply IHa. intros p0 ks0 k0 H1 H2. cbn [snd] in H1. unfold pw_add in H1.
      apply in_aset in H1 as [[-> ->]|H1]; [|eapply Hs; eassumption].
      apply set_add_in in H2 as [->|H2]; [exact Hx|]. unfold pw_get in H2.
      destruct (aget pair_eqb q (snd s)) as [ks'|] eqn:A; [|destruct H2].
      apply (ag_in pair_eqb pair_eqb_eq) in A. eapply Hs; eassumption. }
    apply G. intros p0 ks0 k0 []. }
  rewrite collect_fold.
  assert (G : forall rs s, Forall ok rs -> ok s -> ok (fold_left step_collect rs s)).
  { induction rs as [|r rs IH]; intros s F Hs; [exact Hs|]. cbn [fold_left]. inversion F; subst. apply IH; [assumption|].
    unfold step_collect. intros p0 ks0 k0 H1' H2'. cbn [snd] in H1'.
    assert (K : forall l m, In (p0, ks0) (fold_left (fun m (e : (Z * Z) * list nat) => aset pair_eqb (fst e) (snd e) m) l m) ->
       In (p0, ks0) l \/ In (p0, ks0) m).
    { clear. induction l as [|[q v] l IH]; intros m H; [now right|]. cbn [fold_left fst snd] in H.
      apply IH in H as [H|H]; [left; now right|]. apply in_aset in H as [[-> ->]|H]; [left; now left|now right]. }
    apply K in H1' as [H1'|H1']; [eapply H1; eassumption|eapply Hs; eassumption]. }
  intros H Hk. eapply (G _ ([], [])); [| |exact H|exact Hk].
  - apply Forall_forall. intros r Hr. apply in_flat_map in Hr as [i [_ Hr]].
    destruct (nth_error _ i) as [[a b]|]; [|destruct Hr]. destruct Hr as [<-|[]]. apply C.
  - intros p0 ks0 k0 [].
Qed.

Lemma tab_ok_len t : tab_ok t -> zlen (fst t) <= zlen (snd t).
Proof.
  intros [ND H]. unfold zlen. rewrite <- (map_length fst (fst t)).
  assert ((length (map fst (fst t)) <= length (snd t))%nat); [|lia]. apply NoDup_incl_length; [exact ND|].
  intros s Hs. destruct (last_index s (snd t)) as [i|] eqn:E.
  - apply last_index_at in E. destruct E as [_ E]. eapply nth_error_In. exact E.
  - exfalso. rewrite <- H in E. unfold vget in E. apply (ag_none str_eqb str_eqb_eq) in E. contradiction.
Qed.

Section Training.
  Context (addr : nat -> nat -> str) (pick : list tmerge -> nat) (cf : tcfg) (arrival : list nat) (wc : list (str * Z)).
  Hypothesis lim : limit_ok cf.

  Lemma train_start_ok : exists s counts, train_start addr cf arrival wc = Ok (s, counts) /\ ts_merges s = [] /\
    linv cf counts (zlen (snd (ts_tab s))) (zlen (snd (ts_tab s))) s /\
    exists kept rest more, snd (ts_tab s) = (kept ++ more)%list /\ alphabet_keys cf wc = (kept ++ rest)%list /\
      zlen kept = match tc_limit cf with
                | Some l => if l <? zlen (alphabet_keys cf wc) then zlen (alphabet_keys cf wc) - l else zlen (alphabet_keys cf wc)
                | None => zlen (alphabet_keys cf wc) end /\
      (tc_prefix cf = None -> tc_suffix cf = None -> more = []).
  Proof.
    unfold train_start. destruct (compute_alphabet_ok cf wc lim) as [t [kept [rest [E [T [K1 [K2 [K3 K4]]]]]]]].
    rewrite E. cbn [bind]. destruct t as [v l]. cbn [snd] in *.
    destruct (tokenize_words addr cf 0 (sort_strs (map fst wc)) (v, l)) as [t' words] eqn:Ew.
    destruct (tokenize_words_ok addr cf _ _ _ _ _ T Ew) as [T' [[more X] [R L]]].
    set (counts := map _ (sort_strs (map fst wc))).
    assert (Lc : length counts = length words) by (unfold counts; rewrite map_length; lia).
    pose proof (count_pairs_bound arrival words counts) as CB.
    destruct (count_pairs arrival words counts) as [pc pw]. cbn [snd] in CB.
    eexists _, counts. split; [reflexivity|]. cbn [ts_merges ts_tab]. split; [reflexivity|]. split.
    - constructor; cbn [ts_tab ts_words ts_counts ts_queue ts_merges]; auto.
      + intros m k Hm Hk. unfold new_entries in Hm. apply in_flat_map in Hm as [[p ks] [H1 H2]]. cbn [andb fst snd] in H2.
        destruct H2 as [<-|[]]. cbn [tm_pos] in Hk. eapply CB; eassumption.
      + unfold zlen. cbn [length]. lia.
      + intros [|i] a b id Hi; discriminate.
      + pose proof (tab_ok_len t' T'). lia.
    - cbn [snd] in X. exists kept, rest, more. split; [rewrite X, K1; reflexivity|]. split; [exact K2|]. split; [exact K4|].
      intros P S0. apply (tokenize_words_plain addr cf P S0) in Ew. subst t'. cbn [snd] in X.
      rewrite <- (app_nil_r l) in X at 1. apply app_inv_head in X. now symmetry.
  Qed.

  (** More fuel changes nothing. *)
  Lemma train_loop_more counts f : forall s r k, train_loop pick cf counts f s = Ok r -> train_loop pick cf counts (f + k) s = Ok r.
  Proof.
    clear lim. induction f as [|f IH]; intros s r k; [discriminate|]. cbn [train_loop Nat.add].
    destruct (_ <=? _); [auto|]. destruct (ts_queue s) eqn:Eq; [auto|]. rewrite <- Eq.
    destruct (nth_error (ts_queue s) (pick (ts_queue s))) as [m|]; [|discriminate].
    destruct (negb (_ =? _)); [apply IH|]. destruct (_ || _); [auto|].
    destruct (still_there (ts_words s) m) as [b| | | |]; cbn [bind]; try discriminate.
    destruct (negb b); [apply IH|]. destruct (do_merge _ _ _ _ _) as [s'| | | |]; cbn [bind]; try discriminate. apply IH.
  Qed.

  Lemma train_loop_fun counts f g s a b :
    train_loop pick cf counts f s = Ok a -> train_loop pick cf counts g s = Ok b -> a = b.
  Proof.
    intros A B. apply (train_loop_more _ _ _ _ g) in A. apply (train_loop_more _ _ _ _ f) in B.
    rewrite Nat.add_comm in B. congruence.
  Qed.

  Hypothesis pick_max : picks_highest pick.

  Lemma train_total : exists fuel r, train_bpe addr pick cf arrival wc fuel = Ok r.
  Proof.
    destruct train_start_ok as [s [counts [E [_ [I _]]]]].
    destruct (loop_total pick cf counts _ _ pick_max _ s (le_n _) I) as [fuel [r [E2 _]]].
    exists fuel, (ts_tab r, ts_merges r). unfold train_bpe. rewrite E. cbn [bind fst snd]. rewrite E2. reflexivity.
  Qed.

  Lemma train_facts fuel t news : train_bpe addr pick cf arrival wc fuel = Ok (t, news) ->
    exists base, tab_ok t /\ zlen (snd t) = base + zlen news /\ merges_fit (tc_prefix cf) base (snd t) news /\
      zlen (fst t) <= Z.max (tc_size cf) base.
  Proof.
    destruct train_start_ok as [s [counts [E [_ [I _]]]]]. unfold train_bpe. rewrite E. cbn [bind fst snd].
    destruct (train_loop pick cf counts fuel s) as [r| | | |] eqn:E2; try discriminate. cbn [bind]. intros [= <- <-].
    destruct (loop_total pick cf counts _ _ pick_max _ s (le_n _) I) as [fuel' [r' [E3 I']]].
    assert (r' = r) by (eapply train_loop_fun; eassumption). subst r'.
    exists (zlen (snd (ts_tab s))). destruct I' as [A1 A2 A3 A4 A5 A6 A7]. auto.
  Qed.

  (** The table only grows, and by concatenations of its entries. *)
  Definition made_of (P : N -> Prop) (t : tables) : Prop := Forall (Forall P) (snd t).

  Lemma strip_prefix_forall (P : N -> Prop) p s : Forall P s -> Forall P (strip_prefix p s).
  Proof.
    intros H. destruct p as [q|]; [|exact H]. cbn. destruct (str_eqb _ _); [|exact H].
    rewrite <- (firstn_skipn (length q) s) in H. apply Forall_app in H. apply H.
  Qed.

  Lemma train_loop_grows counts (P : N -> Prop) f : forall s r, train_loop pick cf counts f s = Ok r ->
    made_of P (ts_tab s) ->
    made_of P (ts_tab r) /\ exists m, snd (ts_tab r) = (snd (ts_tab s) ++ m)%list /\ zlen (ts_merges r) = zlen (ts_merges s) + zlen m.
  Proof.
    clear lim pick_max.
    assert (Z0 : forall A (l : list A), zlen l = zlen l + zlen (@nil str)) by (intros; unfold zlen; cbn; lia).
    induction f as [|f IH]; intros s r; [discriminate|]. cbn [train_loop].
    destruct (_ <=? _). { intros [= <-] H. split; [exact H|]. exists []. rewrite app_nil_r. auto. }
    destruct (ts_queue s) as [|q0 qs] eqn:Eq. { intros [= <-] H. split; [exact H|]. exists []. rewrite app_nil_r. auto. }
    rewrite <- Eq. destruct (nth_error (ts_queue s) (pick (ts_queue s))) as [m|]; [|discriminate].
    destruct (negb (_ =? _)). { intros E H. apply IH in E; auto. }
    destruct (_ || _). { intros [= <-] H. split; [exact H|]. exists []. rewrite app_nil_r. auto. }
    destruct (still_there (ts_words s) m) as [b| | | |]; cbn [bind]; try discriminate.
    destruct (negb b). { intros E H. apply IH in E; auto. }
    destruct (do_merge _ _ _ _ _) as [s'| | | |] eqn:D; cbn [bind]; try discriminate. intros E H.
    unfold do_merge in D. destruct (ts_tab s) as [v l]. unfold made_of in H. cbn [snd] in *.
    destruct (zindex l (fst (tm_pair m))) as [pa| | | |] eqn:Ea; cbn [bind] in D; try discriminate.
    destruct (zindex l (snd (tm_pair m))) as [pb| | | |] eqn:Eb; cbn [bind] in D; try discriminate.
    destruct (merge_words _ _ _) as [wc0| | | |]; cbn [bind] in D; try discriminate.
    destruct (apply_changes _ _ _) as [pp| | | |]; cbn [bind] in D; try discriminate. injection D as <-.
    apply IH in E.
    - cbn [ts_tab ts_merges snd] in E. destruct E as [E1 [m' [E2 E3]]]. split; [exact E1|].
      exists ((pa ++ strip_prefix (tc_prefix cf) pb)%list :: m'). split; [rewrite E2, <- app_assoc; reflexivity|].
      rewrite E3. unfold zlen. rewrite app_length. cbn [length]. lia.
    - unfold made_of. cbn [ts_tab snd]. apply zindex_at in Ea, Eb. destruct Ea as [_ Ea], Eb as [_ Eb].
      apply nth_error_In in Ea, Eb. pose proof H as HF. rewrite Forall_forall in HF.
      apply Forall_app. split; [exact H|]. constructor; [|constructor].
      apply Forall_app. split; [auto|]. apply strip_prefix_forall. auto.
  Qed.

  (** Without a prefix and a suffix the table starts with the kept characters. *)
  Lemma train_initial fuel t news : tc_prefix cf = None -> tc_suffix cf = None ->
    train_bpe addr pick cf arrival wc fuel = Ok (t, news) ->
    exists kept rest m, alphabet_keys cf wc = (kept ++ rest)%list /\ snd t = (kept ++ m)%list /\ zlen m = zlen news /\
      zlen kept = match tc_limit cf with
                | Some l => if l <? zlen (alphabet_keys cf wc) then zlen (alphabet_keys cf wc) - l else zlen (alphabet_keys cf wc)
                | None => zlen (alphabet_keys cf wc) end /\
      forall P, Forall (Forall P) kept -> Forall (Forall P) (snd t).
  Proof.
    intros NP NS. destruct train_start_ok as [s [counts [E [M [_ [kept [rest [more [X [Y [Z0 W]]]]]]]]]]].
    specialize (W NP NS). subst more. rewrite app_nil_r in X.
    unfold train_bpe. rewrite E. cbn [bind fst snd].
    destruct (train_loop pick cf counts fuel s) as [r| | | |] eqn:E2; try discriminate. cbn [bind]. intros [= <- <-].
    destruct (train_loop_grows counts (fun _ => True) fuel s r E2) as [_ [m [G1 G2]]].
    { apply Forall_forall. intros x _. apply Forall_forall. auto. }
    exists kept, rest, m. split; [exact Y|]. split; [rewrite <- X; exact G1|]. split.
    { rewrite G2, M. unfold zlen. cbn. lia. }
    split; [exact Z0|]. intros P HP. apply (train_loop_grows counts P fuel s r E2). unfold made_of. now rewrite X.
  Qed.
End Training.

(** ** The merge table *)
Lemma rank_merges_spec l a b rank id : aget pair_eqb (a, b) (rank_merges l) = Some (rank, id) ->
  0 <= rank /\ nth_error l (Z.to_nat rank) = Some ((a, b), id).
Proof.
  unfold rank_merges.
  assert (G : forall l off acc, (forall p r i, aget pair_eqb p acc = Some (r, i) -> 0 <= r /\ r < Z.of_nat off) ->
    forall p r i, aget pair_eqb p (fold_left (fun (t : merge_table) e => aset pair_eqb (fst (snd e)) (fst e, snd (snd e)) t)
      (combine (map Z.of_nat (seq off (length l))) l) acc) = Some (r, i) ->
    (aget pair_eqb p acc = Some (r, i) /\ r < Z.of_nat off) \/ (Z.of_nat off <= r /\ nth_error l (Z.to_nat r - off) = Some (p, i))).
  { clear. induction l as [|[q j] l IH]; intros off acc A p r i; cbn [length seq map combine fold_left].
    - intros H. left. split; [exact H|]. apply A in H. lia.
    - cbn [fst snd]. intros H. apply IH in H.
      + destruct H as [[H1 H2]|[H1 H2]].
        * rewrite (ag_aset pair_eqb pair_eqb_eq) in H1. destruct (pair_eqb p q) eqn:E.
          -- injection H1 as <- <-. apply pair_eqb_eq in E. subst. right. split; [lia|].
             rewrite Nat2Z.id, Nat.sub_diag. reflexivity.
          -- left. split; [exact H1|]. apply A in H1. lia.
        * right. split; [lia|]. replace (Z.to_nat r - off)%nat with (S (Z.to_nat r - S off)) by lia. exact H2.
      + intros p0 r0 i0 H0. rewrite (ag_aset pair_eqb pair_eqb_eq) in H0. destruct (pair_eqb p0 q).
        * injection H0 as <- <-. lia.
        * apply A in H0. lia. }
  intros H. apply (G l 0%nat []) in H; [|discriminate]. destruct H as [[H _]|[H1 H2]]; [discriminate|].
  split; [lia|]. rewrite Nat.sub_0_r in H2. exact H2.
Qed.

Section Results.
  Context (addr : nat -> nat -> str) (pick : list tmerge -> nat) (cf : tcfg) (arrival : list nat) (wc : list (str * Z)) (fuel : nat).
  Context (t : tables) (news : list ((Z * Z) * Z)).
  Hypothesis lim : limit_ok cf.
  Hypothesis pick_max : picks_highest pick.
  Hypothesis done : train_bpe addr pick cf arrival wc fuel = Ok (t, news).
  Let M := trained_model cf (t, news).

  Lemma trained_ids s i : vget s (b_vocab M) = Some i ->
    0 <= i /\ (forall s', vget s' (b_vocab M) = Some i -> s' = s).
  Proof.
    destruct (train_facts addr pick cf arrival wc lim pick_max fuel t news done) as [base [[ND T] _]].
    cbn [M trained_model b_vocab fst]. rewrite T. intros H. apply last_index_at in H. destruct H as [H1 H2].
    split; [exact H1|]. intros s'. rewrite T. intros H'. apply last_index_at in H'. destruct H' as [_ H']. congruence.
  Qed.

  Lemma trained_size : zlen (b_vocab M) <= Z.max (tc_size cf) (zlen (snd t) - zlen news).
  Proof.
    destruct (train_facts addr pick cf arrival wc lim pick_max fuel t news done) as [base [_ [B [_ S0]]]].
    cbn [M trained_model b_vocab fst]. lia.
  Qed.

  Lemma at_index_in_vocab i s : at_index (snd t) i s -> exists j, vget s (b_vocab M) = Some j.
  Proof.
    destruct (train_facts addr pick cf arrival wc lim pick_max fuel t news done) as [base [[ND T] _]].
    intros [_ H]. cbn [M trained_model b_vocab fst]. rewrite T. destruct (last_index s (snd t)) as [j|] eqn:E; [eauto|].
    apply last_index_none in E. apply nth_error_In in H. contradiction.
  Qed.

  Lemma trained_merges a b rank id : aget pair_eqb (a, b) (b_merges M) = Some (rank, id) ->
    exists sa sb sb', at_index (snd t) a sa /\ at_index (snd t) b sb /\ without_prefix (tc_prefix cf) sb sb' /\
      at_index (snd t) id (sa ++ sb') /\ a < id /\ b < id /\ id = zlen (snd t) - zlen news + rank /\
      (exists i, vget sa (b_vocab M) = Some i) /\ (exists j, vget sb (b_vocab M) = Some j) /\
      (exists k, vget (sa ++ sb')%list (b_vocab M) = Some k).
  Proof.
    intros H. cbn [M trained_model b_merges snd] in H. apply rank_merges_spec in H as [H1 H2].
    destruct (train_facts addr pick cf arrival wc lim pick_max fuel t news done) as [base [T [B [F _]]]].
    destruct (F _ _ _ _ H2) as [F1 [F2 [F3 [sa [sb [sb' [A1 [A2 [A3 A4]]]]]]]]].
    exists sa, sb, sb'. do 6 (split; [assumption|]). split; [lia|].
    split; [eapply at_index_in_vocab; exact A1|]. split; eapply at_index_in_vocab; eassumption.
  Qed.

  Lemma trained_usable : NoDup (snd t) -> forall i s, at_index (snd t) i s <-> vget s (b_vocab M) = Some i.
  Proof.
    intros ND i s. destruct (train_facts addr pick cf arrival wc lim pick_max fuel t news done) as [base [[_ T] _]].
    cbn [M trained_model b_vocab fst]. rewrite T. split.
    - intros H. now apply nodup_last_index.
    - apply last_index_at.
  Qed.

  Hypothesis no_prefix : tc_prefix cf = None.
  Hypothesis no_suffix : tc_suffix cf = None.

  Lemma trained_alphabet cs : NoDup cs -> (forall c, In c cs <-> initial_char cf wc c) ->
    exists kept m, snd t = (kept ++ m)%list /\ zlen m = zlen news /\ NoDup kept /\
      (forall c, In c kept -> initial_char cf wc c) /\
      zlen kept = match tc_limit cf with
                  | None => zlen cs
                  | Some l => if l <? zlen cs then zlen cs - l else zlen cs
                  end.
  Proof.
    intros ND C. destruct (train_initial addr pick cf arrival wc lim fuel t news no_prefix no_suffix done)
      as [kept [rest [m [K1 [K2 [K3 [K4 _]]]]]]].
    destruct (alphabet_keys_spec cf wc) as [N1 N2].
    assert (P : Permutation (alphabet_keys cf wc) cs).
    { apply NoDup_Permutation; [exact N1|exact ND|]. intros c. rewrite N2, C. reflexivity. }
    apply Permutation_length in P. unfold zlen in *. rewrite P in K4. exists kept, m. split; [exact K2|]. split; [exact K3|].
    split; [|split; [|exact K4]].
    - rewrite K1 in N1.
      replace kept with (firstn (length kept) (kept ++ rest)); [now apply firstn_nodup|].
      rewrite firstn_app, firstn_all, Nat.sub_diag, firstn_O. apply app_nil_r.
    - intros c Hc. apply N2. rewrite K1. apply in_or_app. now left.
  Qed.

  Lemma trained_bytes s b : In b s ->
    (forall w n, In (w, n) wc -> ~ In b w) -> (forall c, In c (tc_initial cf) -> ~ In b c) ->
    vget s (b_vocab M) = None.
  Proof.
    intros Hb W I. destruct (train_initial addr pick cf arrival wc lim fuel t news no_prefix no_suffix done)
      as [kept [rest [m [K1 [K2 [K3 [K4 K5]]]]]]].
    assert (P : Forall (Forall (fun x => x <> b)) (snd t)).
    { apply K5. apply Forall_forall. intros c Hc. apply Forall_forall. intros x Hx ->.
      assert (A : initial_char cf wc c) by (apply alphabet_keys_spec; rewrite K1; apply in_or_app; now left).
      destruct A as [[w [n [A1 [cs [A2 A3]]]]]|A]; [|exact (I c A Hx)].
      apply (W w n A1). rewrite <- (characters_concat _ _ A2). apply in_concat. eauto. }
    destruct (train_facts addr pick cf arrival wc lim pick_max fuel t news done) as [base [[_ T] _]].
    cbn [M trained_model b_vocab fst]. rewrite T. destruct (last_index s (snd t)) as [i|] eqn:E; [|reflexivity]. exfalso.
    apply last_index_at in E. destruct E as [_ E]. apply nth_error_In in E.
    rewrite Forall_forall in P. specialize (P s E). rewrite Forall_forall in P. exact (P b Hb eq_refl).
  Qed.
End Results.
