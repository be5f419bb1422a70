(** Proofs about counting pairs (C46). *)
From Verif Require Import Base BaseProofs BpeModel TrainerModel TrainerSpec.
From Coq Require Import Permutation.
Open Scope Z_scope.

Lemma pair_eqb_eq a b : pair_eqb a b = true <-> a = b.
Proof.
  destruct a as [a1 a2], b as [b1 b2]. unfold pair_eqb. cbn [fst snd].
  rewrite andb_true_iff, !Z.eqb_eq. split; [intros [-> ->]; reflexivity|intros [= -> ->]; auto].
Qed.
Lemma pair_eqb_refl a : pair_eqb a a = true.
Proof. now apply pair_eqb_eq. Qed.
Lemma pair_eqb_neq a b : a <> b -> pair_eqb a b = false.
Proof. intros H. destruct (pair_eqb a b) eqn:E; [|reflexivity]. now apply pair_eqb_eq in E. Qed.

Lemma set_add_in k s j : In j (set_add k s) <-> j = k \/ In j s.
Proof.
  unfold set_add. destruct (existsb (Nat.eqb k) s) eqn:E.
  - split; [tauto|]. intros [->|H]; [|exact H]. apply existsb_exists in E as [x [Hx E]].
    apply Nat.eqb_eq in E. now subst.
  - rewrite in_app_iff. cbn. intuition.
Qed.

(** ** Events *)
Definition event := ((Z * Z) * nat * Z)%type.
Definition record_event (s : pair_counts * pair_words) (e : event) : pair_counts * pair_words :=
  let '(p, k, c) := e in (pc_add p c (fst s), pw_add p k (snd s)).

Definition word_events (k : nat) (w : list Z) (c : Z) : list event := map (fun p => (p, k, c)) (adjacent w).

Definition chunk_events (items : list (list Z * Z)) (i j : nat) : list event :=
  flat_map (fun k => match nth_error items k with
                     | Some (w, c) => if Z.of_nat i <? zlen w - 1 then word_events k w c else []
                     | None => [] end) (seq i (j - i)).

Lemma fold_left_map {A B C} (f : A -> B -> A) (g : C -> B) l : forall s,
  fold_left f (map g l) s = fold_left (fun s x => f s (g x)) l s.
Proof. induction l as [|x l IH]; intros s; [reflexivity|]. cbn. apply IH. Qed.

Lemma fold_left_flat_map {A B C} (f : A -> B -> A) (g : C -> list B) l : forall s,
  fold_left f (flat_map g l) s = fold_left (fun s x => fold_left f (g x) s) l s.
Proof. induction l as [|x l IH]; intros s; [reflexivity|]. cbn. rewrite fold_left_app. apply IH. Qed.

Lemma fold_left_ext {A B} (f g : A -> B -> A) l : (forall s x, f s x = g s x) ->
  forall s, fold_left f l s = fold_left g l s.
Proof. intros H. induction l as [|x l IH]; intros s; [reflexivity|]. cbn. rewrite H. apply IH. Qed.

Lemma count_chunk_events items i j :
  count_chunk items i j = fold_left record_event (chunk_events items i j) ([], []).
Proof.
  unfold count_chunk, chunk_events. rewrite fold_left_flat_map. apply fold_left_ext.
  intros s k. destruct (nth_error items k) as [[w c]|]; [|reflexivity].
  destruct (Z.of_nat i <? zlen w - 1); [|reflexivity].
  unfold word_events. rewrite fold_left_map. reflexivity.
Qed.

Definition ev_pair (e : event) : Z * Z := fst (fst e).
Definition ev_sum (p : Z * Z) (l : list event) : Z :=
  fold_right (fun e s => (if pair_eqb p (ev_pair e) then snd e else 0) + s) 0 l.

Lemma events_spec l : forall s p,
  let r := fold_left record_event l s in
  (aget pair_eqb p (fst r) = if existsb (fun e => pair_eqb p (ev_pair e)) l
     then Some (pc_get p (fst s) + ev_sum p l) else aget pair_eqb p (fst s)) /\
  (aget pair_eqb p (snd r) = None <-> aget pair_eqb p (snd s) = None /\ existsb (fun e => pair_eqb p (ev_pair e)) l = false) /\
  (forall k, In k (pw_get p (snd r)) <-> In k (pw_get p (snd s)) \/ exists c, In (p, k, c) l).
Proof.
  induction l as [|[[q j] c] l IH]; intros s p.
  - cbn. split; [reflexivity|]. split; [tauto|]. intros k. split; [auto|]. intros [H|[c []]]. exact H.
  - cbn [fold_left]. destruct (IH (record_event s (q, j, c)) p) as [H1 [H2 H3]].
    set (r := fold_left record_event l (record_event s (q, j, c))) in *. cbn [record_event fst snd] in H1, H2, H3.
    cbn [existsb ev_pair ev_sum fold_right fst snd].
    unfold pc_add, pw_add in H1, H2, H3.
    assert (G : pc_get p (aset pair_eqb q (pc_get q (fst s) + c) (fst s))
              = if pair_eqb p q then pc_get q (fst s) + c else pc_get p (fst s)).
    { unfold pc_get at 1. rewrite (ag_aset pair_eqb pair_eqb_eq). destruct (pair_eqb p q); reflexivity. }
    assert (W : pw_get p (aset pair_eqb q (set_add j (pw_get q (snd s))) (snd s))
              = if pair_eqb p q then set_add j (pw_get q (snd s)) else pw_get p (snd s)).
    { unfold pw_get at 1. rewrite (ag_aset pair_eqb pair_eqb_eq). destruct (pair_eqb p q); reflexivity. }
    rewrite G in H1. rewrite (ag_aset pair_eqb pair_eqb_eq) in H1. rewrite (ag_aset pair_eqb pair_eqb_eq) in H2. rewrite W in H3.
    destruct (pair_eqb p q) eqn:E; cbn [orb].
    + apply pair_eqb_eq in E. subst q. split; [|split].
      * rewrite H1. destruct (existsb (fun e => pair_eqb p (ev_pair e)) l) eqn:X.
        -- f_equal. unfold ev_sum. lia.
        -- f_equal. assert (Z0 : ev_sum p l = 0); [|unfold ev_sum in Z0; lia].
           clear - X. induction l as [|e l IH]; [reflexivity|]. cbn in *. apply orb_false_iff in X as [X1 X2].
           unfold ev_sum in IH. rewrite X1, IH by exact X2. reflexivity.
      * rewrite H2. split; [intros [H _]; discriminate|intros [_ H]; discriminate].
      * intros k. rewrite H3, set_add_in. split.
        -- intros [[->|H]|[c' H]]; [right; exists c; now left|now left|right; exists c'; now right].
        -- intros [H|[c' [H|H]]]; [tauto| |right; eauto]. left. left. congruence.
    + split; [exact H1|]. split; [exact H2|]. intros k. rewrite H3. split.
      * intros [H|[c' H]]; [tauto|right; exists c'; now right].
      * intros [H|[c' [H|H]]]; [tauto| |right; eauto].
        injection H as -> -> ->. rewrite pair_eqb_refl in E. discriminate.
Qed.

(** ** Adjacent pairs *)
Lemma follows_events a b w k c : ev_sum (a, b) (word_events k w c) = follows a b w * c.
Proof.
  unfold word_events, adjacent. induction w as [|x w IH]; [reflexivity|]. destruct w as [|y w]; [reflexivity|].
  cbn [tl combine map ev_sum fold_right ev_pair fst snd] in *. change (combine (y :: w) w) with (combine (y :: w) (tl (y :: w))).
  unfold ev_sum in IH. cbn [tl] in *. rewrite IH.
  cbn [follows]. unfold pair_eqb. cbn [fst snd].
  rewrite (Z.eqb_sym a x), (Z.eqb_sym b y). destruct ((x =? a) && (y =? b)); lia.
Qed.

Lemma follows_nonneg a b w : 0 <= follows a b w.
Proof.
  induction w as [|x w IH]; [cbn; lia|]. cbn [follows]. destruct w as [|y w]; [lia|].
  destruct ((x =? a) && (y =? b)); lia.
Qed.

Lemma follows_in a b w : 0 < follows a b w <-> In (a, b) (adjacent w).
Proof.
  unfold adjacent. induction w as [|x w IH]; [cbn; split; [lia|tauto]|].
  destruct w as [|y w]; [cbn; split; [lia|tauto]|].
  cbn [tl combine]. cbn [tl] in IH. change (combine (x :: y :: w) (y :: w)) with ((x, y) :: combine (y :: w) w).
  cbn [In]. rewrite <- IH. cbn [follows].
  pose proof (follows_nonneg a b (y :: w)) as NN. cbn [follows] in NN.
  destruct (Z.eqb_spec x a), (Z.eqb_spec y b); cbn [andb]; split; intros H; try lia;
    try (left; congruence); try (right; lia).
  all: destruct H as [H|H]; [congruence|lia].
Qed.

Lemma ev_sum_app p a b : ev_sum p (a ++ b) = ev_sum p a + ev_sum p b.
Proof. unfold ev_sum. induction a as [|e a IH]; [reflexivity|]. cbn. rewrite IH. lia. Qed.

(** All words of a range, whatever their lengths. *)
Definition all_events (items : list (list Z * Z)) (off : nat) : list event :=
  flat_map (fun e => word_events (fst e) (fst (snd e)) (snd (snd e))) (combine (seq off (length items)) items).

Lemma word_events_short k w c : zlen w <= 1 -> word_events k w c = [].
Proof.
  unfold zlen. intros H. destruct w as [|x [|y w]]; [reflexivity|reflexivity|cbn in H; lia].
Qed.

Lemma chunk_first items m : (m <= length items)%nat ->
  chunk_events items 0 m = all_events (firstn m items) 0.
Proof.
  unfold chunk_events, all_events. rewrite Nat.sub_0_r. intros L.
  assert (G : forall l off (pre : list (list Z * Z)), length pre = off ->
     flat_map (fun k => match nth_error (pre ++ l)%list k with
                     | Some (w, c) => if Z.of_nat 0 <? zlen w - 1 then word_events k w c else []
                     | None => [] end) (seq off (length l))
     = flat_map (fun e => word_events (fst e) (fst (snd e)) (snd (snd e))) (combine (seq off (length l)) l)).
  { induction l as [|[w c] l IH]; intros off pre Hp; [reflexivity|].
    cbn [length seq combine flat_map fst snd].
    rewrite nth_error_app2 by lia. rewrite Hp, Nat.sub_diag. cbn [nth_error].
    replace (pre ++ (w, c) :: l)%list with ((pre ++ [(w, c)]) ++ l)%list by (now rewrite <- app_assoc).
    rewrite IH by (rewrite app_length; cbn; lia). f_equal.
    destruct (Z.ltb_spec (Z.of_nat 0) (zlen w - 1)); [reflexivity|]. symmetry. apply word_events_short. lia. }
  specialize (G (firstn m items) 0%nat [] eq_refl). cbn [app] in G. rewrite <- G.
  rewrite firstn_length, Nat.min_l by exact L. clear G.
  assert (E : forall k, In k (seq 0 m) -> nth_error items k = nth_error (firstn m items) k).
  { intros k Hk. apply in_seq in Hk. rewrite <- (firstn_skipn m items) at 1.
    apply nth_error_app1. rewrite firstn_length. lia. }
  clear L. induction (seq 0 m) as [|k l IH]; [reflexivity|]. cbn [flat_map].
  rewrite (E k) by now left. rewrite IH; [reflexivity|]. intros k' H. apply E. now right.
Qed.

Lemma chunk_none items i j :
  (forall w c, In (w, c) items -> zlen w <= Z.of_nat i + 1) -> chunk_events items i j = [].
Proof.
  intros H. unfold chunk_events. induction (seq i (j - i)) as [|k l IH]; [reflexivity|]. cbn [flat_map].
  rewrite IH. destruct (nth_error items k) as [[w c]|] eqn:E; [|reflexivity].
  specialize (H w c (nth_error_In _ _ E)). destruct (Z.ltb_spec (Z.of_nat i) (zlen w - 1)); [lia|reflexivity].
Qed.

(** ** The collector *)
Definition step_collect (s r : pair_counts * pair_words) : pair_counts * pair_words :=
  (fold_left (fun m e => pc_add (fst e) (snd e) m) (fst r) (fst s),
   fold_left (fun m e => aset pair_eqb (fst e) (snd e) m) (snd r) (snd s)).

Lemma collect_fold l : collect l = fold_left step_collect l ([], []).
Proof. reflexivity. Qed.

Lemma step_empty s : step_collect s ([], []) = s.
Proof. destruct s. reflexivity. Qed.

Lemma aget_notin {V} p (m : list ((Z * Z) * V)) : ~ In p (map fst m) -> aget pair_eqb p m = None.
Proof.
  induction m as [|[q v] m IH]; [reflexivity|]. cbn. intros H.
  rewrite pair_eqb_neq by (intros ->; tauto). apply IH. tauto.
Qed.

Lemma step_from_empty r : NoDup (map fst (fst r)) -> NoDup (map fst (snd r)) ->
  (forall p, aget pair_eqb p (fst (step_collect ([], []) r)) = aget pair_eqb p (fst r)) /\
  (forall p, aget pair_eqb p (snd (step_collect ([], []) r)) = aget pair_eqb p (snd r)).
Proof.
  destruct r as [a b]. cbn [fst snd step_collect]. intros NA NB. split.
  - assert (G : forall (a acc : pair_counts) p, NoDup (map fst a) ->
      (forall q, In q (map fst a) -> aget pair_eqb q acc = None) ->
      aget pair_eqb p (fold_left (fun m e => pc_add (fst e) (snd e) m) a acc)
       = match aget pair_eqb p a with Some v => Some v | None => aget pair_eqb p acc end).
    { clear. induction a as [|[q v] a IH]; intros acc p ND H; [reflexivity|].
      cbn in ND. inversion ND as [|x y NI ND']; subst. cbn [fold_left fst snd].
      rewrite IH; [|exact ND'|].
      - cbn [aget]. unfold pc_add, pc_get. rewrite (H q) by now left.
        rewrite (ag_aset pair_eqb pair_eqb_eq). destruct (pair_eqb p q) eqn:E.
        + apply pair_eqb_eq in E. subst. rewrite aget_notin by exact NI. reflexivity.
        + reflexivity.
      - intros q' Hq. unfold pc_add. rewrite (ag_aset pair_eqb pair_eqb_eq).
        rewrite pair_eqb_neq by (intros ->; contradiction). apply H. now right. }
    intros p. rewrite G; [|exact NA|reflexivity]. destruct (aget pair_eqb p a); reflexivity.
  - assert (G : forall (b acc : pair_words) p, NoDup (map fst b) ->
      aget pair_eqb p (fold_left (fun m e => aset pair_eqb (fst e) (snd e) m) b acc)
       = match aget pair_eqb p b with Some v => Some v | None => aget pair_eqb p acc end).
    { clear. induction b as [|[q v] b IH]; intros acc p ND; [reflexivity|].
      cbn in ND. inversion ND as [|x y NI ND']; subst. cbn [fold_left fst snd].
      rewrite IH; [|exact ND']. cbn [aget]. rewrite (ag_aset pair_eqb pair_eqb_eq). destruct (pair_eqb p q) eqn:E.
      + apply pair_eqb_eq in E. subst. rewrite aget_notin by exact NI. reflexivity.
      + reflexivity. }
    intros p. rewrite G by exact NB. destruct (aget pair_eqb p b); reflexivity.
Qed.

Lemma record_nodup l : forall s, NoDup (map fst (fst s)) -> NoDup (map fst (snd s)) ->
  NoDup (map fst (fst (fold_left record_event l s))) /\ NoDup (map fst (snd (fold_left record_event l s))).
Proof.
  induction l as [|[[p k] c] l IH]; intros s H1 H2; [auto|]. cbn [fold_left]. apply IH; cbn [record_event fst snd].
  - apply (aset_nodup pair_eqb pair_eqb_eq). exact H1.
  - apply (aset_nodup pair_eqb pair_eqb_eq). exact H2.
Qed.

(** One non-empty result among empty ones. *)
Lemma collect_single l r :
  NoDup (map fst (fst r)) -> NoDup (map fst (snd r)) ->
  Permutation l (r :: repeat ([], []) (length l - 1)) ->
  (forall p, aget pair_eqb p (fst (collect l)) = aget pair_eqb p (fst r)) /\
  (forall p, aget pair_eqb p (snd (collect l)) = aget pair_eqb p (snd r)).
Proof.
  intros NA NB P. rewrite collect_fold.
  assert (A : forall x, In x l -> x = r \/ x = ([], [])).
  { intros x Hx. apply (Permutation_in _ P) in Hx. destruct Hx as [->|Hx]; [now left|]. right. now apply repeat_spec in Hx. }
  assert (E0 : forall m s, fold_left step_collect (repeat ([], []) m) s = s).
  { induction m as [|m IH]; intros s; [reflexivity|]. cbn [repeat fold_left]. rewrite step_empty. apply IH. }
  assert (X : exists s1 s2, l = (repeat ([], []) s1 ++ r :: repeat ([], []) s2)%list).
  { assert (Hr : In r l) by (apply (Permutation_in _ (Permutation_sym P)); now left).
    apply in_split in Hr as [l1 [l2 ->]].
    assert (P2 : Permutation (l1 ++ l2) (repeat ([], []) (length (l1 ++ r :: l2) - 1))).
    { apply (Permutation_cons_inv (a := r)). eapply Permutation_trans; [apply Permutation_middle|exact P]. }
    assert (AE : forall x, In x (l1 ++ l2)%list -> x = ([], [])).
    { intros x Hx. apply (Permutation_in _ P2) in Hx. now apply repeat_spec in Hx. }
    exists (length l1), (length l2). f_equal; [|f_equal].
    - clear - AE. induction l1 as [|x l1 IH]; [reflexivity|]. cbn. f_equal; [apply AE; now left|].
      apply IH. intros y H. apply AE. now right.
    - clear - AE. induction l2 as [|x l2 IH]; [reflexivity|]. cbn. f_equal; [apply AE; apply in_or_app; right; now left|].
      apply IH. intros y H. apply AE. apply in_app_or in H. apply in_or_app. destruct H; [now left|right; now right]. }
  destruct X as [s1 [s2 ->]]. rewrite fold_left_app, E0. cbn [fold_left]. rewrite E0.
  apply step_from_empty; assumption.
Qed.

(** The set of the last result that mentions the pair remains. *)
Lemma collect_last l : forall s p, Forall (fun r => NoDup (map fst (snd r))) l ->
  aget pair_eqb p (snd (fold_left step_collect l s))
    = fold_left (fun o (r : pair_counts * pair_words) => match aget pair_eqb p (snd r) with Some x => Some x | None => o end)
        l (aget pair_eqb p (snd s)).
Proof.
  induction l as [|r l IH]; intros s p F; [reflexivity|]. inversion F as [|x y Nr F']; subst.
  cbn [fold_left]. rewrite IH by exact F'. f_equal. cbn [step_collect snd].
  assert (G : forall (b acc : pair_words), NoDup (map fst b) ->
      aget pair_eqb p (fold_left (fun m e => aset pair_eqb (fst e) (snd e) m) b acc)
       = match aget pair_eqb p b with Some v => Some v | None => aget pair_eqb p acc end).
  { clear. induction b as [|[q v] b IH]; intros acc ND; [reflexivity|].
    cbn in ND. inversion ND as [|x y NI ND']; subst. cbn [fold_left fst snd].
    rewrite IH; [|exact ND']. cbn [aget]. rewrite (ag_aset pair_eqb pair_eqb_eq). destruct (pair_eqb p q) eqn:E.
    + apply pair_eqb_eq in E. subst. rewrite aget_notin by exact NI. reflexivity.
    + reflexivity. }
  apply G. exact Nr.
Qed.

(** ** A whole corpus *)
Lemma all_events_sum a b words : forall counts off, length counts = length words ->
  ev_sum (a, b) (all_events (combine words counts) off) = corpus_count a b words counts.
Proof.
  induction words as [|w ws IH]; intros [|c cs] off L; try discriminate; [reflexivity|].
  unfold all_events in *. cbn [combine length seq flat_map fst snd].
  rewrite ev_sum_app, follows_events, IH by (cbn in L; lia). reflexivity.
Qed.

Lemma all_events_in a b words : forall counts off k c, length counts = length words ->
  In ((a, b), k, c) (all_events (combine words counts) off) -> (off <= k)%nat /\ occurs_in a b words (k - off).
Proof.
  induction words as [|w ws IH]; intros [|c0 cs] off k c L H; try discriminate; [destruct H|].
  unfold all_events in H. cbn [combine length seq flat_map fst snd] in H.
  apply in_app_or in H as [H|H].
  - unfold word_events in H. apply in_map_iff in H as [p [E Hp]]. injection E as -> <- <-. split; [lia|].
    rewrite Nat.sub_diag. exists w. split; [reflexivity|]. now apply follows_in.
  - destruct (IH cs (S off) k c ltac:(cbn in L; lia) H) as [H1 [w' [H2 H3]]]. split; [lia|].
    exists w'. split; [|exact H3]. replace (k - off)%nat with (S (k - S off)) by lia. exact H2.
Qed.

Lemma all_events_of a b words : forall counts off k, length counts = length words ->
  occurs_in a b words k -> exists c, In ((a, b), (off + k)%nat, c) (all_events (combine words counts) off).
Proof.
  induction words as [|w ws IH]; intros [|c0 cs] off k L [w' [H1 H2]]; try discriminate; [destruct k; discriminate|].
  unfold all_events. cbn [combine length seq flat_map fst snd]. destruct k as [|k].
  - injection H1 as <-. exists c0. apply in_or_app. left. rewrite Nat.add_0_r. unfold word_events.
    apply in_map_iff. exists (a, b). split; [reflexivity|]. now apply follows_in.
  - destruct (IH cs (S off) k ltac:(cbn in L; lia)) as [c H].
    + exists w'. auto.
    + exists c. apply in_or_app. right. replace (off + S k)%nat with (S off + k)%nat by lia. exact H.
Qed.

Lemma events_table words counts : length counts = length words ->
  let r := fold_left record_event (all_events (combine words counts) 0) ([], []) in
  pair_table_of words counts (fun p => aget pair_eqb p (fst r)) (fun p => aget pair_eqb p (snd r)).
Proof.
  intros L r a b. destruct (events_spec (all_events (combine words counts) 0) ([], []) (a, b)) as [H1 [H2 H3]].
  fold r in H1, H2, H3. cbn [fst snd] in *.
  set (evs := all_events (combine words counts) 0) in *.
  destruct (existsb (fun e => pair_eqb (a, b) (ev_pair e)) evs) eqn:X.
  - left. split; [|split].
    + apply existsb_exists in X as [[[q k] c] [He E]]. apply pair_eqb_eq in E. cbn in E. subst q.
      apply all_events_in in He; [|exact L]. rewrite Nat.sub_0_r in He. exists k. tauto.
    + rewrite H1. change (pc_get (a, b) []) with 0. rewrite <- (all_events_sum a b words counts 0 L). reflexivity.
    + destruct (aget pair_eqb (a, b) (snd r)) as [ks|] eqn:K.
      * exists ks. split; [reflexivity|]. intros k. specialize (H3 k). unfold pw_get in H3 at 1. rewrite K in H3. rewrite H3.
        split.
        -- intros [[]|[c H]]. apply all_events_in in H; [|exact L]. rewrite Nat.sub_0_r in H. tauto.
        -- intros H. right. destruct (all_events_of a b words counts 0 k L H) as [c Hc]. exists c. exact Hc.
      * destruct H2 as [H2 _]. destruct (H2 eq_refl) as [_ H]. discriminate.
  - right. split; [|split].
    + intros k H. destruct (all_events_of a b words counts 0 k L H) as [c Hc].
      assert (Y : existsb (fun e => pair_eqb (a, b) (ev_pair e)) evs = true); [|congruence].
      apply existsb_exists. eexists. split; [exact Hc|]. apply pair_eqb_refl.
    + exact H1.
    + apply H2. auto.
Qed.

Lemma pair_table_ext words counts f g f' g' :
  (forall p, f p = f' p) -> (forall p, g p = g' p) ->
  pair_table_of words counts f g -> pair_table_of words counts f' g'.
Proof.
  intros E1 E2 H a b. rewrite <- E1, <- E2. apply H.
Qed.

Lemma combine_firstn' {A B} n (a : list A) (b : list B) : combine (firstn n a) (firstn n b) = firstn n (combine a b).
Proof.
  revert a b; induction n as [|n IH]; intros [|x a] [|y b]; try reflexivity. cbn. now rewrite IH.
Qed.

(** ** The workers *)
Lemma ranges_tail fuel n size : forall i k a b, nth_error (ranges_from fuel n size i) k = Some (a, b) -> (i + k * size <= a)%nat.
Proof.
  induction fuel as [|fuel IH]; intros i k a b H; [destruct k; discriminate|]. cbn [ranges_from] in H.
  destruct (i <? n)%nat; [|destruct k; discriminate]. destruct k as [|k].
  - cbn in H. injection H as <- <-. lia.
  - cbn [nth_error] in H. apply IH in H. lia.
Qed.

Lemma ranges_one n : (0 < n)%nat -> ranges_from n n n 0 = [(0%nat, n)].
Proof.
  intros H. destruct n as [|n]; [lia|]. set (m := S n) in *.
  assert (E : forall fuel i, (m <= i)%nat -> ranges_from fuel m m i = []).
  { intros fuel i Hi. destruct fuel; [reflexivity|]. cbn [ranges_from]. destruct (Nat.ltb_spec i m); [lia|reflexivity]. }
  unfold m at 1. cbn [ranges_from]. destruct (Nat.ltb_spec 0 m); [|lia].
  rewrite E by lia. now rewrite Nat.add_0_l, Nat.min_id.
Qed.

Lemma seq_perm_nonempty arrival n : Permutation arrival (seq 0 n) -> length arrival = n.
Proof. intros P. apply Permutation_length in P. now rewrite seq_length in P. Qed.

Lemma flat_map_perm_map {A B} (f : A -> B) (rs : list A) arrival :
  Permutation arrival (seq 0 (length rs)) ->
  Permutation (flat_map (fun k => match nth_error rs k with Some x => [f x] | None => [] end) arrival) (map f rs).
Proof.
  intros P.
  assert (Q : Permutation (flat_map (fun k => match nth_error rs k with Some x => [f x] | None => [] end) arrival)
                          (flat_map (fun k => match nth_error rs k with Some x => [f x] | None => [] end) (seq 0 (length rs))))
    by (apply Permutation_flat_map; exact P).
  eapply Permutation_trans; [exact Q|].
  assert (E : forall pre, flat_map (fun k => match nth_error (pre ++ rs)%list k with Some x => [f x] | None => [] end)
                   (seq (length pre) (length rs)) = map f rs).
  { clear. induction rs as [|x rs IH]; intros pre; [reflexivity|]. cbn [length seq flat_map map].
    rewrite nth_error_app2, Nat.sub_diag by lia. cbn [nth_error app]. f_equal.
    specialize (IH (pre ++ [x])%list). rewrite app_length in IH. cbn [length] in IH. rewrite Nat.add_1_r in IH.
    rewrite <- app_assoc in IH. exact IH. }
  specialize (E []). cbn [app length] in E. rewrite E. reflexivity.
Qed.

Lemma count_pairs_spec arrival words counts :
  length counts = length words ->
  Permutation arrival (seq 0 (length (worker_ranges (length words)))) ->
  (Z.of_nat (length words) < 10000 \/
   forall w, In w words -> zlen w <= Z.of_nat (length words / 4) + 1) ->
  let m := if Z.of_nat (length words) <? 10000 then length words else (length words / 4)%nat in
  let r := count_pairs arrival words counts in
  pair_table_of (firstn m words) (firstn m counts) (fun p => aget pair_eqb p (fst r)) (fun p => aget pair_eqb p (snd r)).
Proof.
  intros L P S0 m r. set (n := length words) in *.
  assert (Lc : length (combine words counts) = n) by (rewrite combine_length; unfold n; lia).
  assert (T : pair_table_of (firstn m words) (firstn m counts)
     (fun p => aget pair_eqb p (fst (count_chunk (combine words counts) 0 m)))
     (fun p => aget pair_eqb p (snd (count_chunk (combine words counts) 0 m)))).
  { rewrite count_chunk_events, chunk_first.
    - rewrite <- combine_firstn'. apply events_table. rewrite !firstn_length. unfold n in *. lia.
    - rewrite Lc. unfold m. destruct (Z.of_nat n <? 10000); [lia|]. apply Nat.div_le_upper_bound; lia. }
  revert P. unfold r, count_pairs, worker_ranges. fold n.
  destruct (Z.ltb_spec (Z.of_nat n) 10000) as [Lt|Ge].
  - cbv zeta. rewrite Nat.div_1_r. destruct (Nat.eq_dec n 0) as [N0|N0].
    + rewrite N0. cbn [ranges_from length seq]. intros P. apply Permutation_sym, Permutation_nil in P. subst arrival.
      cbn [flat_map collect fold_left fst snd]. replace m with 0%nat by (unfold m; lia). cbn [firstn].
      intros a b. right. split; [|auto]. intros k [w [H _]]. destruct k; discriminate.
    + replace (Nat.max 1 n) with n by lia. rewrite ranges_one by lia. cbn [length seq]. intros P.
      apply Permutation_sym, Permutation_length_1_inv in P. subst arrival. cbn [flat_map nth_error app].
      replace n with m by (unfold m; lia).
      destruct (collect_single [count_chunk (combine words counts) 0 m] (count_chunk (combine words counts) 0 m)) as [C1 C2].
      * rewrite count_chunk_events. apply record_nodup; constructor.
      * rewrite count_chunk_events. apply record_nodup; constructor.
      * reflexivity.
      * eapply pair_table_ext; [| |exact T]; intros p; symmetry; [apply C1|apply C2].
  - destruct S0 as [S0|S0]; [lia|]. cbv zeta.
    assert (Q1 : (1 <= n / 4)%nat) by (apply Nat.div_le_lower_bound; lia).
    replace (Nat.max 1 (n / 4)) with (n / 4)%nat by lia. replace (n / 4)%nat with m by (unfold m; lia).
    set (rs := ranges_from n n m 0). intros P.
    set (f := fun x : nat * nat => count_chunk (combine words counts) (fst x) (snd x)).
    pose proof (flat_map_perm_map f rs arrival P) as PM.
    assert (RS : exists tl, rs = (0%nat, m) :: tl /\ forall x, In x tl -> f x = ([], [])).
    { assert (R1 : forall x k, nth_error rs k = Some x -> (k * m <= fst x)%nat).
      { intros [a b] k H. unfold rs in H. apply ranges_tail in H. exact H. }
      assert (R0 : exists tl, rs = (0%nat, m) :: tl).
      { unfold rs. destruct n as [|n'] eqn:En; [lia|]. rewrite <- En in *. cbn [ranges_from].
        replace (ranges_from n n m 0) with (ranges_from (S n') n m 0) by (f_equal; congruence). cbn [ranges_from].
        destruct (Nat.ltb_spec 0 n); [|lia]. exists (ranges_from n' n m (0 + m)).
        do 2 f_equal. rewrite Nat.add_0_l. apply Nat.min_l. unfold m. apply Nat.div_le_upper_bound; lia. }
      destruct R0 as [tl E]. exists tl. split; [exact E|]. intros x Hx. apply In_nth_error in Hx as [k Hk].
      unfold f. rewrite count_chunk_events, chunk_none; [reflexivity|].
      intros w c Hw. apply in_combine_l in Hw. specialize (S0 w Hw).
      specialize (R1 x (S k)). rewrite E in R1. specialize (R1 Hk).
      assert (m <= fst x)%nat by lia. unfold m in *. lia. }
    destruct RS as [tl [E Z0]].
    assert (PM' : Permutation (flat_map (fun k => match nth_error rs k with
                              | Some (i, j) => [count_chunk (combine words counts) i j]
                              | None => [] end) arrival) (map f rs)).
    { erewrite flat_map_ext; [exact PM|]. intros k. cbn beta. destruct (nth_error rs k) as [[i j]|]; reflexivity. }
    clear PM. set (results := flat_map _ arrival) in *. clearbody results.
    assert (Lr : (length results - 1)%nat = length tl).
    { apply Permutation_length in PM'. rewrite E, map_length in PM'. cbn [length] in PM'. lia. }
    rewrite E in PM'. cbn [map] in PM'.
    assert (M : map f tl = repeat ([], []) (length tl)).
    { clear - Z0. induction tl as [|x tl IH]; [reflexivity|]. cbn. rewrite (Z0 x) by now left. f_equal. apply IH.
      intros y Hy. apply Z0. now right. }
    rewrite M, <- Lr in PM'.
    destruct (collect_single results (f (0%nat, m))) as [C1 C2].
    + unfold f. cbn [fst snd]. rewrite count_chunk_events. apply record_nodup; constructor.
    + unfold f. cbn [fst snd]. rewrite count_chunk_events. apply record_nodup; constructor.
    + exact PM'.
    + eapply pair_table_ext; [| |exact T]; intros p; symmetry; [apply C1|apply C2].
Qed.
