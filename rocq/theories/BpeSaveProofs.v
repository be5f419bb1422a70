From Verif Require Import Base BaseProofs SliceModel SliceProofs HeapModel HeapProofs BpeModel BpeSaveModel BpeSaveSpec.
From Verif Require EncodingProofs.

(** Splitting *)

Fixpoint join_on (sep : N) (l : list str) : str :=
  match l with
  | [] => []
  | [p] => p
  | p :: ps => p ++ sep :: join_on sep ps
  end.

Lemma split_on_nonnil sep s : split_on sep s <> [].
Proof.
  destruct s as [|c s]; cbn; [discriminate|]. destruct (c =? sep)%N; [discriminate|].
  destruct (split_on sep s); discriminate.
Qed.

Lemma split_on_join sep s : join_on sep (split_on sep s) = s.
Proof.
  induction s as [|c s IH]; [reflexivity|]. cbn [split_on].
  pose proof (split_on_nonnil sep s) as N.
  destruct (N.eqb_spec c sep) as [->|_].
  - destruct (split_on sep s) as [|p ps]; [congruence|]. cbn. now rewrite <- IH.
  - destruct (split_on sep s) as [|p ps]; [congruence|]. cbn in *. destruct ps; cbn; now rewrite <- IH.
Qed.

Lemma split_on_nosep sep s p : In p (split_on sep s) -> ~ In sep p.
Proof.
  revert p. induction s as [|c s IH]; intros p; cbn [split_on].
  - intros [<-|[]] [].
  - pose proof (split_on_nonnil sep s) as N. destruct (N.eqb_spec c sep) as [->|Hc].
    + intros [<-|H]; [intros []|now apply IH].
    + destruct (split_on sep s) as [|p0 ps]; [congruence|]. intros [<-|H].
      * intros [->|H]; [congruence|]. exact (IH p0 (or_introl eq_refl) H).
      * apply IH. now right.
Qed.

Lemma split_on_app sep x s : ~ In sep x -> split_on sep (x ++ sep :: s) = x :: split_on sep s.
Proof.
  induction x as [|c x IH]; intros H; cbn.
  - now rewrite N.eqb_refl.
  - destruct (N.eqb_spec c sep) as [->|_]; [exfalso; apply H; now left|].
    rewrite IH by (intros I; apply H; now right). reflexivity.
Qed.

Lemma split_on_one sep x : ~ In sep x -> split_on sep x = [x].
Proof.
  induction x as [|c x IH]; intros H; cbn; [reflexivity|].
  destruct (N.eqb_spec c sep) as [->|_]; [exfalso; apply H; now left|].
  rewrite IH by (intros I; apply H; now right). reflexivity.
Qed.

Lemma split_two line x y : two_tokens line x y <-> split_on SP line = [x; y].
Proof.
  split.
  - intros (-> & Hx & Hy). cbn. rewrite split_on_app by exact Hx. now rewrite split_on_one.
  - intros E. split.
    + rewrite <- (split_on_join SP line), E. reflexivity.
    + split; apply (split_on_nosep SP line); rewrite E; [now left|right; now left].
Qed.

Lemma malformed_iff line : malformed line <-> forall x y, split_on SP line <> [x; y].
Proof.
  unfold malformed. split.
  - intros H x y E. apply H. exists x, y. now apply split_two.
  - intros H (x & y & E). apply split_two in E. now apply H in E.
Qed.

(** Building tables *)

Lemma pair_eqb_eq a b : pair_eqb a b = true <-> a = b.
Proof.
  destruct a, b. unfold pair_eqb. cbn. rewrite andb_true_iff, !Z.eqb_eq. split.
  - now intros [-> ->].
  - now intros [= -> ->].
Qed.

Definition ins (st : Z * merge_table) (e : (Z * Z) * Z) : Z * merge_table :=
  ((fst st + 1)%Z, aset pair_eqb (fst e) (fst st, snd e) (snd st)).

Lemma create_fold v lines : forall st,
  (forall acc, accepts v lines acc -> foldR (merge_line v) lines st = Ok (fold_left ins acc st)) /\
  (~ (exists acc, accepts v lines acc) -> foldR (merge_line v) lines st = Err).
Proof.
  induction lines as [|line lines IH]; intros [n m]; cbn [foldR].
  - split.
    + intros acc H. inversion H; subst. reflexivity.
    + intros H. exfalso. apply H. exists []. constructor.
  - split.
    + intros acc H. inversion H as [|? ? ? x y T K A|? ? acc' x y a b new T Ka Kb Kn A]; subst;
        apply split_two in T; unfold merge_line; rewrite T.
      * destruct K as [K|K]; rewrite K; [|destruct (vget x v)]; cbn [bind]; now apply (IH (n, m)).
      * rewrite Ka, Kb, Kn. cbn [bind fold_left]. now apply (IH (ins (n, m) (a, b, new))).
    + intros H. unfold merge_line.
      destruct (split_on SP line) as [|x [|y [|z l]]] eqn:E; try reflexivity.
      apply split_two in E.
      destruct (vget x v) as [a|] eqn:Ea.
      * destruct (vget y v) as [b|] eqn:Eb.
        -- destruct (vget (x ++ y) v) as [new|] eqn:En; [|reflexivity]. cbn [bind].
           apply IH. intros (acc & A). apply H. eexists. exact (acc_line v line lines acc x y a b new E Ea Eb En A).
        -- cbn [bind]. apply IH. intros (acc & A). apply H. eexists.
           exact (acc_skip v line lines acc x y E (or_intror Eb) A).
      * cbn [bind]. apply IH. intros (acc & A). apply H. eexists.
        exact (acc_skip v line lines acc x y E (or_introl Ea) A).
Qed.

Lemma accepts_dec v lines : (exists acc, accepts v lines acc) \/ ~ (exists acc, accepts v lines acc).
Proof.
  induction lines as [|line lines IH].
  - left. exists []. constructor.
  - destruct IH as [(acc & A)|H].
    + destruct (split_on SP line) as [|x [|y [|z l]]] eqn:E;
        try (right; intros (acc' & A'); inversion A' as [|? ? ? x' y' T|? ? ? x' y' ? ? ? T]; subst;
             apply split_two in T; rewrite E in T; discriminate T).
      apply split_two in E.
      destruct (vget x v) as [a|] eqn:Ea.
      * destruct (vget y v) as [b|] eqn:Eb.
        -- destruct (vget (x ++ y) v) as [new|] eqn:En.
           ++ left. eexists. exact (acc_line v line lines acc x y a b new E Ea Eb En A).
           ++ right. intros (acc' & A'). apply split_two in E.
              inversion A' as [|? ? ? x' y' T K|? ? ? x' y' ? ? ? T Ka Kb Kn]; subst;
                apply split_two in T; rewrite E in T; injection T as <- <-.
              ** destruct K as [K|K]; congruence.
              ** congruence.
        -- left. eexists. exact (acc_skip v line lines acc x y E (or_intror Eb) A).
      * left. eexists. exact (acc_skip v line lines acc x y E (or_introl Ea) A).
    + right. intros (acc & A). apply H. inversion A; subst; eauto.
Qed.

Lemma accepts_iff v lines :
  (exists acc, accepts v lines acc) <-> Forall (fun l => ~ malformed l /\ ~ dangling v l) lines.
Proof.
  split.
  - intros (acc & A). induction A as [|line lines acc x y T K A IH|line lines acc x y a b new T Ka Kb Kn A IH];
      constructor; try exact IH.
    + split.
      * intros M. apply M. eauto.
      * intros (x' & y' & a & b & T' & K1 & K2 & _). apply split_two in T, T'. rewrite T in T'.
        injection T' as <- <-. destruct K; congruence.
    + split.
      * intros M. apply M. eauto.
      * intros (x' & y' & a' & b' & T' & K1 & K2 & K3). apply split_two in T, T'. rewrite T in T'.
        injection T' as <- <-. congruence.
  - intros F. induction F as [|line lines [H1 H2] F IH].
    + exists []. constructor.
    + destruct IH as (acc & A).
      destruct (split_on SP line) as [|x [|y [|z l]]] eqn:E;
        try (exfalso; apply H1, malformed_iff; intros x' y'; rewrite E; discriminate).
      apply split_two in E.
      destruct (vget x v) as [a|] eqn:Ea.
      * destruct (vget y v) as [b|] eqn:Eb.
        -- destruct (vget (x ++ y) v) as [new|] eqn:En.
           ++ eexists. exact (acc_line v line lines acc x y a b new E Ea Eb En A).
           ++ exfalso. apply H2. exists x, y, a, b. auto.
        -- eexists. exact (acc_skip v line lines acc x y E (or_intror Eb) A).
      * eexists. exact (acc_skip v line lines acc x y E (or_introl Ea) A).
Qed.

Lemma last_at_cons e acc p i new : last_at acc p i new <-> last_at (e :: acc) p (S i) new.
Proof.
  unfold last_at. cbn [nth_error]. split; intros [H1 H2]; (split; [exact H1|]).
  - intros [|j] new' Hj; [lia|]. apply H2. lia.
  - intros j new' Hj. exact (H2 (S j) new' ltac:(lia)).
Qed.

Lemma in_fst_nth {A B} (l : list (A * B)) p :
  In p (map fst l) <-> exists j b, nth_error l j = Some (p, b).
Proof.
  rewrite in_map_iff. split.
  - intros ([p' b] & <- & H). apply In_nth_error in H as (j & H). exists j, b. exact H.
  - intros (j & b & H). exists (p, b). split; [reflexivity|]. now apply nth_error_In in H.
Qed.

Lemma ins_lookup acc : forall n m p r new,
  aget pair_eqb p (snd (fold_left ins acc (n, m))) = Some (r, new) <->
  (exists i, last_at acc p i new /\ r = (n + Z.of_nat i)%Z) \/
  (~ In p (map fst acc) /\ aget pair_eqb p m = Some (r, new)).
Proof.
  induction acc as [|[q nq] acc IH]; intros n m p r new; cbn [fold_left].
  - cbn. split.
    + intros H. right. tauto.
    + intros [(i & [H _] & _)|[_ H]]; [destruct i; discriminate|exact H].
  - unfold ins at 2. cbn [fst snd]. rewrite IH. rewrite (ag_aset pair_eqb pair_eqb_eq). cbn [map fst].
    split.
    + intros [(i & L & ->)|[H1 H2]].
      * left. exists (S i). split; [now apply last_at_cons|lia].
      * destruct (pair_eqb p q) eqn:E.
        -- apply pair_eqb_eq in E as ->. injection H2 as <- <-. left. exists 0. split; [|lia].
           split; [reflexivity|]. intros [|j] new' Hj; [lia|]. cbn. intros K. apply H1.
           apply in_fst_nth. eauto.
        -- right. split; [|exact H2]. intros [<-|K]; [|tauto].
           rewrite (keqb_refl pair_eqb pair_eqb_eq) in E. discriminate.
    + intros [(i & L & ->)|[H1 H2]].
      * destruct i as [|i].
        -- destruct L as [L1 L2]. cbn in L1. injection L1 as -> ->. right. split.
           ++ intros K. apply in_fst_nth in K as (j & b & K). exact (L2 (S j) b ltac:(lia) K).
           ++ rewrite (keqb_refl pair_eqb pair_eqb_eq). repeat f_equal; lia.
        -- left. exists i. split; [now apply last_at_cons in L|lia].
      * right. split; [intros K; apply H1; now right|].
        rewrite (keqb_neq pair_eqb pair_eqb_eq); [exact H2|]. intros ->. apply H1. now left.
Qed.

Lemma create_merges_ok v lines t :
  create_merges v lines = Ok t ->
  exists acc, accepts v lines acc /\
    forall c1 c2 r new, lookup_merge t c1 c2 = Some (r, new) <->
      exists i, last_at acc (c1, c2) i new /\ r = Z.of_nat i.
Proof.
  unfold create_merges. intros E. destruct (accepts_dec v lines) as [(acc & A)|H].
  - exists acc. split; [exact A|].
    rewrite (proj1 (create_fold v lines (0%Z, [])) acc A) in E. cbn [bind] in E. injection E as <-.
    intros c1 c2 r new. unfold lookup_merge. rewrite ins_lookup. cbn. split.
    + intros [(i & L & ->)|[_ H]]; [exists i; split; [exact L|lia]|discriminate H].
    + intros (i & L & ->). left. exists i. split; [exact L|lia].
  - now rewrite (proj2 (create_fold v lines (0%Z, [])) H) in E.
Qed.

Lemma create_merges_total v lines :
  (Forall (fun l => ~ malformed l /\ ~ dangling v l) lines /\ exists t, create_merges v lines = Ok t) \/
  (~ Forall (fun l => ~ malformed l /\ ~ dangling v l) lines /\ create_merges v lines = Err).
Proof.
  rewrite <- accepts_iff. unfold create_merges. destruct (accepts_dec v lines) as [(acc & A)|H].
  - left. split; [eauto|]. rewrite (proj1 (create_fold v lines (0%Z, [])) acc A). cbn. eauto.
  - right. split; [exact H|]. now rewrite (proj2 (create_fold v lines (0%Z, [])) H).
Qed.

Lemma create_rejects v lines line :
  In line lines -> malformed line \/ dangling v line -> create_merges v lines = Err.
Proof.
  intros I H. destruct (create_merges_total v lines) as [[F _]|[_ E]]; [|exact E].
  rewrite Forall_forall in F. specialize (F line I). tauto.
Qed.

(** The file *)

Lemma starts_with_app p s : starts_with p (p ++ s) = true.
Proof. induction p as [|x p IH]; cbn; [reflexivity|]. now rewrite N.eqb_refl. Qed.

Lemma split_lines ls : (forall l, In l ls -> ~ In NL l) ->
  split_on NL (concat (map (fun l => l ++ [NL]) ls)) = ls ++ [[]].
Proof.
  induction ls as [|l ls IH]; intros H; [reflexivity|]. cbn [map concat].
  rewrite <- app_assoc. cbn [app]. rewrite split_on_app by (apply H; now left).
  rewrite IH; [reflexivity|]. intros l' I. apply H. now right.
Qed.

Lemma drop_cr_plain l : last l 0%N <> CR -> drop_cr l = l.
Proof.
  unfold drop_cr. intros H. destruct (rev l) as [|c r] eqn:E; [reflexivity|].
  assert (El : l = rev r ++ [c]) by (rewrite <- (rev_involutive l), E; reflexivity).
  rewrite El in H. rewrite last_last in H. destruct (N.eqb_spec c CR); [congruence|reflexivity].
Qed.

Lemma existsb_false {A} (f : A -> bool) l : (forall x, In x l -> f x = false) -> existsb f l = false.
Proof.
  induction l as [|x l IH]; intros H; [reflexivity|]. cbn. rewrite (H x (or_introl eq_refl)). cbn.
  apply IH. intros y I. apply H. now right.
Qed.

Lemma scan_saved ls : (forall l, In l ls -> ~ In NL l /\ (zlen l < 65536)%Z /\ last l 0%N <> CR) ->
  scan_lines (concat (map (fun l => l ++ [NL]) ls)) = Ok ls.
Proof.
  intros H. unfold scan_lines. rewrite split_lines by (intros l I; apply H, I).
  rewrite rev_app_distr. cbn [rev app]. rewrite rev_involutive.
  rewrite existsb_false by (intros l I; destruct (H l I) as (_ & ? & _); lia).
  f_equal. rewrite <- (map_id ls) at 2. apply map_ext_in. intros l I. apply drop_cr_plain, H, I.
Qed.

Lemma scan_too_long ls l : (forall l, In l ls -> ~ In NL l) -> In l ls -> (65536 <= zlen l)%Z ->
  scan_lines (concat (map (fun l => l ++ [NL]) ls)) = Err.
Proof.
  intros H I L. unfold scan_lines. rewrite split_lines by exact H.
  rewrite rev_app_distr. cbn [rev app]. rewrite rev_involutive.
  replace (existsb (fun l => 65536 <=? zlen l)%Z ls) with true; [reflexivity|].
  symmetry. apply existsb_exists. exists l. split; [exact I|lia].
Qed.

Lemma filter_all {A} (f : A -> bool) l : (forall x, In x l -> f x = true) -> filter f l = l.
Proof.
  induction l as [|x l IH]; intros H; [reflexivity|]. cbn. rewrite (H x (or_introl eq_refl)). f_equal.
  apply IH. intros y I. apply H. now right.
Qed.

Lemma save_merges_lines vr sorted :
  save_merges vr sorted = concat (map (fun l => l ++ [NL]) (map (save_line vr) sorted)).
Proof. unfold save_merges. now rewrite map_map. Qed.

Section RoundTrip.
  Variable v : vocab.
  Variable vr : vocab_r.

  Definition entry_ok (e : (Z * Z) * (Z * Z)) : Prop :=
    exists x y, vrget (fst (fst e)) vr = Some x /\ vrget (snd (fst e)) vr = Some y /\
      vget x v = Some (fst (fst e)) /\ vget y v = Some (snd (fst e)) /\
      vget (x ++ y) v = Some (snd (snd e)) /\ ~ In SP x /\ ~ In SP y /\ ~ In NL x /\ ~ In NL y.

  Lemma entries_ok t sorted : consistent v vr t -> separable vr t -> Permutation t sorted ->
    Forall entry_ok sorted.
  Proof.
    intros (_ & _ & C) S P. apply Forall_forall. intros [[c1 c2] [rank new]] I.
    apply (Permutation_in _ (Permutation_sym P)) in I.
    destruct (C _ _ _ _ I) as (x & y & H1 & H2 & H3 & H4 & H5).
    destruct (S _ _ _ _ x I (or_introl H1)) as [Sx Nx]. destruct (S _ _ _ _ y I (or_intror H2)) as [Sy Ny].
    exists x, y. cbn. auto 12.
  Qed.

  Lemma entry_line e : entry_ok e -> exists x y, two_tokens (save_line vr e) x y /\
    vget x v = Some (fst (fst e)) /\ vget y v = Some (snd (fst e)) /\ vget (x ++ y) v = Some (snd (snd e)).
  Proof.
    intros (x & y & H1 & H2 & H3 & H4 & H5 & H6 & H7 & _). exists x, y. unfold save_line. rewrite H1, H2.
    cbn [opt_str]. split; [split; [reflexivity|tauto]|tauto].
  Qed.

  Lemma entry_no_nl e : entry_ok e -> ~ In NL (save_line vr e).
  Proof.
    intros (x & y & H1 & H2 & _ & _ & _ & _ & _ & H8 & H9). unfold save_line. rewrite H1, H2.
    cbn [opt_str]. rewrite !in_app_iff. intros [I|[[I|[]]|I]]; [tauto|discriminate I|tauto].
  Qed.

  Lemma entries_accepted es : Forall entry_ok es ->
    accepts v (map (save_line vr) es) (map (fun e => (fst e, snd (snd e))) es).
  Proof.
    induction 1 as [|e es H F IH]; [constructor|]. cbn [map].
    destruct (entry_line e H) as (x & y & T & Hx & Hy & Hn). destruct e as [[c1 c2] [rank new]]. cbn in *.
    exact (acc_line v _ _ _ x y c1 c2 new T Hx Hy Hn IH).
  Qed.

  Lemma read_saved sorted : Forall entry_ok sorted ->
    Forall (fun e => plain_line (save_line vr e)) sorted ->
    read_merges v (save_merges vr sorted) =
      Ok (snd (fold_left ins (map (fun e => (fst e, snd (snd e))) sorted) (0%Z, []))).
  Proof.
    intros F P. unfold read_merges. rewrite save_merges_lines, scan_saved.
    - cbn [bind]. rewrite filter_all.
      + unfold create_merges.
        rewrite (proj1 (create_fold v _ (0%Z, [])) _ (entries_accepted sorted F)). reflexivity.
      + intros l I. apply in_map_iff in I as (e & <- & I). rewrite Forall_forall in P.
        destruct (P e I) as (_ & -> & _). reflexivity.
    - intros l I. apply in_map_iff in I as (e & <- & I). rewrite Forall_forall in P, F.
      destruct (P e I) as (? & _ & ?). split; [now apply entry_no_nl, F|]. tauto.
  Qed.
End RoundTrip.

Lemma sorted_position sorted : StronglySorted (fun a b => rank_of a <= rank_of b)%Z sorted ->
  NoDup (map rank_of sorted) -> forall i e, nth_error sorted i = Some e ->
  position sorted (rank_of e) = Z.of_nat i.
Proof.
  unfold position, zlen. induction 1 as [|a l S IH F]; intros N i e H; [destruct i; discriminate|].
  cbn [map] in N. inversion N as [|? ? N1 N2]; subst.
  destruct i as [|i]; cbn in H.
  - injection H as ->. cbn [filter]. replace (rank_of e <? rank_of e)%Z with false by lia.
    replace (filter _ l) with (@nil ((Z*Z)*(Z*Z))); [reflexivity|]. symmetry.
    rewrite Forall_forall in F. clear -F. induction l as [|x l IH]; [reflexivity|]. cbn.
    replace (rank_of x <? rank_of e)%Z with false by (specialize (F x (or_introl eq_refl)); lia).
    apply IH. intros y I. apply F. now right.
  - cbn [filter]. assert (I : In e l) by (now apply nth_error_In in H).
    rewrite Forall_forall in F. specialize (F e I).
    assert (rank_of a <> rank_of e) by (intros Q; apply N1; rewrite Q; now apply in_map).
    replace (rank_of a <? rank_of e)%Z with true by lia. cbn [length].
    specialize (IH N2 i e H). lia.
Qed.

Lemma filter_perm_len {A} (f : A -> bool) l l' : Permutation l l' -> length (filter f l) = length (filter f l').
Proof.
  induction 1 as [|x l l' P IH|x y l|l l' l'' P1 IH1 P2 IH2]; cbn; try lia.
  - destruct (f x); cbn; lia.
  - destruct (f x), (f y); cbn; lia.
Qed.

Lemma position_perm t t' r : Permutation t t' -> position t r = position t' r.
Proof. intros P. unfold position, zlen. now rewrite (filter_perm_len _ t t' P). Qed.

Lemma nth_error_nodup {A B} (l : list (A * B)) i j p b b' : NoDup (map fst l) ->
  nth_error l i = Some (p, b) -> nth_error l j = Some (p, b') -> i = j.
Proof.
  intros N H1 H2. apply (proj1 (NoDup_nth_error _) N).
  - rewrite map_length. apply nth_error_Some. congruence.
  - rewrite !nth_error_map, H1, H2. reflexivity.
Qed.

Lemma round_trip v vr t sorted :
  consistent v vr t -> separable vr t -> sorting t sorted ->
  Forall (fun e => plain_line (save_line vr e)) t ->
  exists t', read_merges v (save_merges vr sorted) = Ok t' /\
    forall c1 c2, lookup_merge t' c1 c2 =
      option_map (fun p => (position t (fst p), snd p)) (lookup_merge t c1 c2).
Proof.
  intros C S [P So] Pl.
  pose proof (entries_ok v vr t sorted C S P) as F.
  eexists. split; [apply read_saved; [exact F|]|].
  { rewrite Forall_forall in Pl |- *. intros e I. apply Pl. exact (Permutation_in _ (Permutation_sym P) I). }
  intros c1 c2. set (acc := map (fun e => (fst e, snd (snd e))) sorted).
  destruct C as (N & Nr & _).
  assert (N' : NoDup (map fst sorted)) by (apply (Permutation_NoDup (Permutation_map fst P) N)).
  assert (Nr' : NoDup (map rank_of sorted)) by (apply (Permutation_NoDup (Permutation_map rank_of P) Nr)).
  assert (Nacc : NoDup (map fst acc)) by (unfold acc; rewrite map_map; exact N').
  unfold lookup_merge. destruct (aget pair_eqb (c1, c2) t) as [[r new]|] eqn:E; cbn [option_map].
  - apply (ag_in pair_eqb pair_eqb_eq) in E. apply (Permutation_in _ P) in E.
    apply In_nth_error in E as (i & E).
    apply ins_lookup. left. exists i. split.
    + split.
      * unfold acc. rewrite nth_error_map, E. reflexivity.
      * intros j new' Hj K.
        assert (Hi : nth_error acc i = Some ((c1, c2), new)) by (unfold acc; rewrite nth_error_map, E; reflexivity).
        pose proof (nth_error_nodup acc i j _ _ _ Nacc Hi K). lia.
    + cbn [fst]. rewrite (position_perm t sorted r P).
      rewrite <- (sorted_position sorted So Nr' i _ E). unfold rank_of. cbn. lia.
  - apply (ag_none pair_eqb pair_eqb_eq) in E.
    destruct (aget pair_eqb (c1, c2) (snd (fold_left ins acc (0%Z, [])))) as [[r new]|] eqn:E'; [|reflexivity].
    apply ins_lookup in E' as [(i & [L _] & _)|[_ K]]; [|discriminate K].
    exfalso. apply E. apply (Permutation_in _ (Permutation_sym (Permutation_map fst P))).
    unfold acc in L. rewrite nth_error_map in L. destruct (nth_error sorted i) as [e|] eqn:Ee; [|discriminate].
    cbn in L. injection L as L _. rewrite <- L. apply in_map. now apply nth_error_In in Ee.
Qed.

(** Ranks 0, 1, ..., n-1 come back unchanged. *)
Lemma position_dense_aux sorted : StronglySorted (fun a b => rank_of a <= rank_of b)%Z sorted ->
  forall k, Permutation (map rank_of sorted) (map Z.of_nat (seq k (length sorted))) ->
  map rank_of sorted = map Z.of_nat (seq k (length sorted)).
Proof.
  induction 1 as [|a l So IH F]; intros k P; [reflexivity|]. cbn [length seq map] in *.
  assert (Ha : rank_of a = Z.of_nat k).
  { assert (I1 : In (rank_of a) (Z.of_nat k :: map Z.of_nat (seq (S k) (length l))))
      by (eapply Permutation_in; [exact P|now left]).
    assert (I2 : In (Z.of_nat k) (rank_of a :: map rank_of l))
      by (eapply Permutation_in; [apply Permutation_sym; exact P|now left]).
    destruct I1 as [I1|I1]; [lia|]. apply in_map_iff in I1 as (j & J & I1). apply in_seq in I1.
    destruct I2 as [I2|I2]; [lia|]. apply in_map_iff in I2 as (e & Ee & I2).
    rewrite Forall_forall in F. specialize (F e I2). lia. }
  rewrite Ha in P |- *. f_equal. apply IH. exact (Permutation_cons_inv P).
Qed.

Lemma position_dense t sorted c1 c2 r new :
  sorting t sorted -> Permutation (map rank_of t) (map Z.of_nat (seq 0 (length t))) ->
  lookup_merge t c1 c2 = Some (r, new) -> position t r = r.
Proof.
  intros [P S] D L. apply (ag_in pair_eqb pair_eqb_eq) in L. apply (Permutation_in _ P) in L.
  apply In_nth_error in L as (i & L).
  assert (D' : Permutation (map rank_of sorted) (map Z.of_nat (seq 0 (length sorted)))).
  { rewrite <- (Permutation_length P). transitivity (map rank_of t); [|exact D].
    apply Permutation_map. now symmetry. }
  assert (N : NoDup (map rank_of sorted)).
  { apply (Permutation_NoDup (Permutation_sym D')). apply FinFun.Injective_map_NoDup; [intros a b; lia|apply seq_NoDup]. }
  rewrite (position_perm t sorted r P).
  change r with (rank_of ((c1, c2), (r, new))). rewrite (sorted_position sorted S N i _ L).
  pose proof (position_dense_aux sorted S 0 D') as E.
  assert (X : nth_error (map rank_of sorted) i = Some r) by (now rewrite nth_error_map, L).
  rewrite E, nth_error_map in X. destruct (nth_error (seq 0 (length sorted)) i) as [k|] eqn:Ek; [|discriminate].
  cbn in X. injection X as <-. apply nth_error_nth with (d := 0) in Ek.
  rewrite seq_nth in Ek by (apply nth_error_Some; congruence). cbn. lia.
Qed.

(** A merge whose line contains "#version" is lost. *)
Lemma create_only v lines t c1 c2 r new : create_merges v lines = Ok t ->
  lookup_merge t c1 c2 = Some (r, new) ->
  exists line x y, In line lines /\ two_tokens line x y /\ vget x v = Some c1 /\ vget y v = Some c2.
Proof.
  intros E L. destruct (create_merges_ok v lines t E) as (acc & A & H).
  destruct (proj1 (H c1 c2 r new) L) as (i & [L2 _] & _). clear L. rename L2 into L. apply nth_error_In in L. clear -A L. revert L.
  induction A as [|line lines acc x y T K A IH|line lines acc x y a b n T Ka Kb Kn A IH]; intros L; [destruct L| |].
  - destruct (IH L) as (l' & x' & y' & I & R). exists l', x', y'. split; [now right|exact R].
  - destruct L as [L|L].
    + injection L as -> -> ->. exists line, x, y. split; [now left|tauto].
    + destruct (IH L) as (l' & x' & y' & I & R). exists l', x', y'. split; [now right|exact R].
Qed.

Lemma version_lost v vr t sorted t' c1 c2 rank new :
  consistent v vr t -> separable vr t -> sorting t sorted ->
  Forall (fun e => (zlen (save_line vr e) < 65536)%Z /\ last (save_line vr e) 0%N <> CR) t ->
  In ((c1, c2), (rank, new)) t ->
  contains version_mark (save_line vr ((c1, c2), (rank, new))) = true ->
  read_merges v (save_merges vr sorted) = Ok t' ->
  lookup_merge t' c1 c2 = None.
Proof.
  intros C S [P So] Pl I V E.
  pose proof (entries_ok v vr t sorted C S P) as F.
  unfold read_merges in E. rewrite save_merges_lines, scan_saved in E.
  - cbn [bind] in E. destruct (lookup_merge t' c1 c2) as [[r n]|] eqn:L; [|reflexivity]. exfalso.
    destruct (create_only v _ t' c1 c2 r n E L) as (line & x & y & Il & T & Hx & Hy).
    apply filter_In in Il as [Il Nv]. apply in_map_iff in Il as (e & <- & Ie).
    rewrite Forall_forall in F. destruct (F e Ie) as (x' & y' & R1 & R2 & V1 & V2 & _ & S1 & S2 & _).
    assert (T' : two_tokens (save_line vr e) x' y').
    { unfold save_line. rewrite R1, R2. cbn [opt_str]. split; [reflexivity|tauto]. }
    apply split_two in T, T'. rewrite T in T'. injection T' as <- <-.
    rewrite Hx in V1. rewrite Hy in V2. injection V1 as V1. injection V2 as V2.
    assert (Eline : save_line vr e = save_line vr ((c1, c2), (rank, new))).
    { unfold save_line. cbn [fst]. now rewrite <- V1, <- V2. }
    rewrite Eline, V in Nv. discriminate.
  - intros l Il. apply in_map_iff in Il as (e & <- & Ie). rewrite Forall_forall in F, Pl.
    split; [now apply (entry_no_nl v), F|]. apply Pl. exact (Permutation_in _ (Permutation_sym P) Ie).
Qed.

(** Order of ranks *)

Section HeapRel.
  Context {A B : Type} (gtA : A -> A -> bool) (gtB : B -> B -> bool) (R : A -> B -> Prop).
  Hypothesis gt_rel : forall a b a' b', R a b -> R a' b' -> gtA a a' = gtB b b'.

  Lemma Forall2_nth_error (l : list A) (l' : list B) i : Forall2 R l l' ->
    match nth_error l i, nth_error l' i with
    | Some a, Some b => R a b | None, None => True | _, _ => False
    end.
  Proof.
    intros F. revert i. induction F as [|a b l l' H F IH]; intros [|i]; cbn; auto. apply IH.
  Qed.

  Lemma Forall2_upd (l : list A) (l' : list B) i a b : Forall2 R l l' -> R a b ->
    Forall2 R (upd l i a) (upd l' i b).
  Proof.
    intros F H. revert i. induction F as [|a0 b0 l l' H0 F IH]; intros i.
    - destruct i; constructor.
    - destruct i; cbn; constructor; auto.
  Qed.

  Lemma swap_rel (l : list A) (l' : list B) i j : Forall2 R l l' -> Forall2 R (swap l i j) (swap l' i j).
  Proof.
    intros F. unfold swap. pose proof (Forall2_nth_error l l' i F). pose proof (Forall2_nth_error l l' j F).
    destruct (nth_error l i), (nth_error l' i); try tauto.
    destruct (nth_error l j), (nth_error l' j); try tauto. now repeat apply Forall2_upd.
  Qed.

  Lemma bubble_up_rel fuel : forall (l : list A) (l' : list B) i, Forall2 R l l' ->
    Forall2 R (bubble_up gtA fuel l i) (bubble_up gtB fuel l' i).
  Proof.
    induction fuel as [|fuel IH]; intros l l' i F; [exact F|]. cbn [bubble_up].
    destruct (i =? 0); [exact F|].
    pose proof (Forall2_nth_error l l' ((i - 1) / 2) F) as H1. pose proof (Forall2_nth_error l l' i F) as H2.
    destruct (nth_error l ((i - 1) / 2)), (nth_error l' ((i - 1) / 2)); try tauto.
    destruct (nth_error l i), (nth_error l' i); try tauto.
    rewrite (gt_rel _ _ _ _ H1 H2). destruct (gtB _ _); [|exact F]. now apply IH, swap_rel.
  Qed.

  Lemma heap_push_rel (l : list A) (l' : list B) a b : Forall2 R l l' -> R a b ->
    Forall2 R (heap_push gtA l a) (heap_push gtB l' b).
  Proof.
    intros F H. unfold heap_push. rewrite (Forall2_len _ _ _ F). apply bubble_up_rel.
    apply Forall2_app; [exact F|]. constructor; [exact H|constructor].
  Qed.

  Lemma bubble_down_rel fuel : forall (l : list A) (l' : list B) i, Forall2 R l l' ->
    Forall2 R (bubble_down gtA fuel l i) (bubble_down gtB fuel l' i).
  Proof.
    induction fuel as [|fuel IH]; intros l l' i F; [exact F|]. cbn [bubble_down].
    pose proof (Forall2_nth_error l l' (2 * i + 1) F) as H1.
    pose proof (Forall2_nth_error l l' i F) as H2.
    pose proof (Forall2_nth_error l l' (2 * i + 2) F) as H3.
    destruct (nth_error l (2 * i + 1)) as [lv|], (nth_error l' (2 * i + 1)) as [lv'|]; try tauto.
    destruct (nth_error l i) as [iv|], (nth_error l' i) as [iv'|]; try tauto.
    destruct (nth_error l (2 * i + 2)) as [rv|], (nth_error l' (2 * i + 2)) as [rv'|]; try tauto.
    - rewrite (gt_rel _ _ _ _ H1 H3). destruct (gtB lv' rv').
      + rewrite (gt_rel _ _ _ _ H2 H3). destruct (gtB iv' rv'); [|exact F]. now apply IH, swap_rel.
      + rewrite (gt_rel _ _ _ _ H2 H1). destruct (gtB iv' lv'); [|exact F]. now apply IH, swap_rel.
    - rewrite (gt_rel _ _ _ _ H2 H1). destruct (gtB iv' lv'); [|exact F]. now apply IH, swap_rel.
  Qed.

  Lemma removelast_rel (l : list A) (l' : list B) : Forall2 R l l' -> Forall2 R (removelast l) (removelast l').
  Proof.
    induction 1 as [|a b l l' H F IH]; [constructor|]. destruct F; [constructor|].
    cbn [removelast] in *. constructor; [exact H|exact IH].
  Qed.

  Lemma heap_pop_rel (l : list A) (l' : list B) : Forall2 R l l' ->
    match heap_pop gtA l, heap_pop gtB l' with
    | Some (a, q), Some (b, q') => R a b /\ Forall2 R q q'
    | None, None => True
    | _, _ => False
    end.
  Proof.
    intros F. destruct F as [|a b l l' H F]; cbn [heap_pop]; [exact I|]. split; [exact H|].
    assert (F' : Forall2 R (a :: l) (b :: l')) by (now constructor).
    pose proof (removelast_rel _ _ (swap_rel _ _ 0 (length (a :: l) - 1) F')) as F2.
    rewrite <- (Forall2_len _ _ _ F'). rewrite (Forall2_len _ _ _ F2).
    apply bubble_down_rel. exact F2.
  Qed.
End HeapRel.

Section SameOrder.
  Variables t t' : merge_table.
  Hypothesis SO : same_order t t'.

  Definition mrel (a b : mrg) : Prop :=
    m_pos a = m_pos b /\ m_new a = m_new b /\
    exists c1 c2, lookup_merge t c1 c2 = Some (m_rank a, m_new a) /\
                  lookup_merge t' c1 c2 = Some (m_rank b, m_new b).

  Lemma mrel_gt a b a' b' : mrel a b -> mrel a' b' -> mrg_gt a a' = mrg_gt b b'.
  Proof.
    intros (_ & _ & c1 & c2 & L1 & L1') (_ & _ & d1 & d2 & L2 & L2'). unfold mrg_gt.
    destruct SO as [_ H]. pose proof (H _ _ _ _ _ _ _ _ _ _ _ _ L2 L1 L2' L1'). lia.
  Qed.

  Lemma lookup_rel c1 c2 :
    match lookup_merge t c1 c2, lookup_merge t' c1 c2 with
    | Some (r, n), Some (r', n') => n = n' /\ forall pos, mrel (Mrg pos r n) (Mrg pos r' n')
    | None, None => True
    | _, _ => False
    end.
  Proof.
    destruct SO as [H _]. specialize (H c1 c2).
    destruct (lookup_merge t c1 c2) as [[r n]|] eqn:E, (lookup_merge t' c1 c2) as [[r' n']|] eqn:E'; cbn in H;
      try discriminate; [|exact I].
    injection H as <-. split; [reflexivity|]. intros pos. split; [reflexivity|]. split; [reflexivity|]. cbn. eauto.
  Qed.

  Lemma qpush_rel q q' a b : Forall2 mrel q q' -> mrel a b -> Forall2 mrel (qpush q a) (qpush q' b).
  Proof. apply heap_push_rel. exact mrel_gt. Qed.

  Lemma push_pair_rel q q' pos a b : Forall2 mrel q q' ->
    Forall2 mrel (push_pair t q pos a b) (push_pair t' q' pos a b).
  Proof.
    intros F. unfold push_pair. pose proof (lookup_rel (s_c a) (s_c b)) as L.
    destruct (lookup_merge t _ _) as [[r n]|], (lookup_merge t' _ _) as [[r' n']|]; try tauto.
    destruct L as [_ L]. now apply qpush_rel.
  Qed.

  Lemma qpushes_rel s s' : Forall2 mrel s s' -> forall q q', Forall2 mrel q q' ->
    Forall2 mrel (fold_left qpush s q) (fold_left qpush s' q').
  Proof.
    induction 1 as [|a b s s' H F IH]; intros q q' Q; [exact Q|]. cbn [fold_left]. now apply IH, qpush_rel.
  Qed.

  Definition orel (x y : res (list sym * list mrg)) : Prop :=
    match x, y with
    | Ok (w, q), Ok (w', q') => w = w' /\ Forall2 mrel q q'
    | Err, Err | Panic, Panic | Fatal, Fatal | NoFuel, NoFuel => True
    | _, _ => False
    end.

  Lemma process_top_rel w q q' a b : Forall2 mrel q q' -> mrel a b ->
    orel (process_top t w q a) (process_top t' w q' b).
  Proof.
    intros F (Hp & Hn & _). unfold process_top. rewrite Hp, Hn.
    destruct (zindex w (m_pos b)) as [cur| | | |]; cbn [bind orel]; auto.
    destruct (0 <? s_len cur)%Z; [|now split].
    destruct (s_next cur =? -1)%Z; [now split|].
    destruct (zindex w (s_next cur)) as [rgt| | | |]; cbn [bind orel]; auto.
    pose proof (lookup_rel (s_c cur) (s_c rgt)) as L.
    destruct (lookup_merge t (s_c cur) (s_c rgt)) as [[r n]|], (lookup_merge t' (s_c cur) (s_c rgt)) as [[r' n']|];
      try tauto; [|now split].
    destruct L as [<- _]. destruct (n =? m_new b)%Z; [|now split].
    set (current := Sym _ _ _ _).
    destruct (zupd w (m_pos b) current) as [w1| | | |]; cbn [bind orel]; auto.
    destruct (zupd w1 _ _) as [w2| | | |]; cbn [bind orel]; auto.
    match goal with |- orel (do w3 <- ?X; _) _ => destruct X as [w3| | | |] end; cbn [bind orel]; auto.
    destruct (0 <=? s_prev current)%Z.
    - destruct (zindex w3 (s_prev current)) as [p| | | |]; cbn [bind orel]; auto.
      pose proof (push_pair_rel q q' (s_prev current) p current F) as F1.
      destruct ((s_next current <? zlen w) && (-1 <? s_next current))%Z; [|now split].
      destruct (zindex w3 (s_next current)) as [nn| | | |]; cbn [bind orel]; auto.
      split; [reflexivity|]. now apply push_pair_rel.
    - cbn [bind]. destruct ((s_next current <? zlen w) && (-1 <? s_next current))%Z; [|now split].
      destruct (zindex w3 (s_next current)) as [nn| | | |]; cbn [bind orel]; auto.
      split; [reflexivity|]. now apply push_pair_rel.
  Qed.

  Lemma merge_loop_rel drop fuel : forall k w q q' s s', Forall2 mrel q q' -> Forall2 mrel s s' ->
    merge_loop t drop fuel k w q s = merge_loop t' drop fuel k w q' s'.
  Proof.
    induction fuel as [|fuel IH]; intros k w q q' s s' F S; [reflexivity|]. cbn [merge_loop].
    pose proof (heap_pop_rel mrg_gt mrg_gt mrel mrel_gt q q' F) as P. unfold qpop.
    destruct (heap_pop mrg_gt q) as [[a q1]|], (heap_pop mrg_gt q') as [[b q1']|]; try tauto.
    destruct P as [Hab F1]. destruct (drop k).
    - apply IH; [exact F1|]. apply Forall2_app; [exact S|]. constructor; [exact Hab|constructor].
    - pose proof (process_top_rel w _ _ a b (qpushes_rel s s' S q1 q1' F1) Hab) as O. unfold orel in O.
      destruct (process_top t _ _ _) as [[w1 q2]| | | |], (process_top t' _ _ _) as [[w1' q2']| | | |]; try tauto;
        cbn [bind]; try reflexivity.
      destruct O as [<- F2]. now apply IH.
  Qed.

  Lemma init_queue_rel w : Forall2 mrel (init_queue t w) (init_queue t' w).
  Proof.
    unfold init_queue. generalize (combine (seq 0 (length w)) (combine w (tl w))) as l.
    assert (forall l q q', Forall2 mrel q q' ->
      Forall2 mrel (fold_left (fun q (p : nat * (sym * sym)) => let '(i, (a, b)) := p in
         match lookup_merge t (s_c a) (s_c b) with
         | Some (rank, new) => qpush q (Mrg (Z.of_nat i) rank new) | None => q end) l q)
        (fold_left (fun q (p : nat * (sym * sym)) => let '(i, (a, b)) := p in
         match lookup_merge t' (s_c a) (s_c b) with
         | Some (rank, new) => qpush q (Mrg (Z.of_nat i) rank new) | None => q end) l q')) as H.
    { induction l as [|[i [a b]] l IH]; intros q q' F; [exact F|]. cbn [fold_left]. apply IH.
      pose proof (lookup_rel (s_c a) (s_c b)) as L.
      destruct (lookup_merge t _ _) as [[r n]|], (lookup_merge t' _ _) as [[r' n']|]; try tauto.
      destruct L as [_ L]. now apply qpush_rel. }
    intros l. apply H. constructor.
  Qed.

  Lemma merge_all_rel drop fuel w : merge_all t drop fuel w = merge_all t' drop fuel w.
  Proof.
    unfold merge_all. rewrite (merge_loop_rel drop fuel 0 w _ _ [] [] (init_queue_rel w) (Forall2_nil _)).
    reflexivity.
  Qed.
End SameOrder.

Lemma init_word_with b t s : init_word (with_merges b t) s = init_word b s.
Proof. reflexivity. Qed.

Lemma tokenize_same_order b t' : same_order (b_merges b) t' ->
  forall s, bpe_tokenize (with_merges b t') s = bpe_tokenize b s.
Proof.
  intros SO s. unfold bpe_tokenize, merge_word. destruct (length s =? 0); [reflexivity|].
  rewrite init_word_with. cbn [b_merges with_merges]. destruct (init_word b s) as [w| | | |]; try reflexivity.
  cbn [bind]. rewrite <- (merge_all_rel _ _ SO). reflexivity.
Qed.

Lemma tokenize_dropout_same_order b t' : same_order (b_merges b) t' ->
  forall drop fuel s, bpe_tokenize_dropout (with_merges b t') drop fuel s = bpe_tokenize_dropout b drop fuel s.
Proof.
  intros SO drop fuel s. unfold bpe_tokenize_dropout, merge_word. destruct (length s =? 0); [reflexivity|].
  rewrite init_word_with. cbn [b_merges with_merges]. destruct (init_word b s) as [w| | | |]; try reflexivity.
  cbn [bind]. rewrite <- (merge_all_rel _ _ SO). reflexivity.
Qed.

Lemma filter_le {A} (f g : A -> bool) l : (forall x, In x l -> f x = true -> g x = true) ->
  length (filter f l) <= length (filter g l).
Proof.
  induction l as [|x l IH]; intros H; [reflexivity|]. cbn.
  specialize (IH (fun y I => H y (or_intror I))). pose proof (H x (or_introl eq_refl)) as Hx.
  destruct (f x); [rewrite Hx by reflexivity; cbn; lia|]. destruct (g x); cbn; lia.
Qed.

Lemma position_le t r s : (r <= s)%Z -> (position t r <= position t s)%Z.
Proof.
  intros H. unfold position, zlen. apply Nat2Z.inj_le. apply filter_le. intros x _. lia.
Qed.

Lemma position_lt t r s e : (r < s)%Z -> In e t -> rank_of e = r -> (position t r < position t s)%Z.
Proof.
  intros H I E. unfold position, zlen. apply Nat2Z.inj_lt.
  apply in_split in I as (l1 & l2 & ->). rewrite !filter_app, !app_length. cbn [filter].
  replace (rank_of e <? r)%Z with false by lia. replace (rank_of e <? s)%Z with true by lia. cbn [length].
  assert (H' : forall x : (Z*Z)*(Z*Z), (rank_of x <? r)%Z = true -> (rank_of x <? s)%Z = true) by (intros; lia).
  pose proof (filter_le (fun e => rank_of e <? r)%Z (fun e => rank_of e <? s)%Z l1 (fun x _ => H' x)).
  pose proof (filter_le (fun e => rank_of e <? r)%Z (fun e => rank_of e <? s)%Z l2 (fun x _ => H' x)). lia.
Qed.

Lemma renumbered_same_order t t' :
  (forall c1 c2, lookup_merge t' c1 c2 =
      option_map (fun p => (position t (fst p), snd p)) (lookup_merge t c1 c2)) -> same_order t t'.
Proof.
  intros H. split.
  - intros c1 c2. rewrite H. destruct (lookup_merge t c1 c2) as [[r n]|]; reflexivity.
  - intros c1 c2 d1 d2 r n s m r' n' s' m' L1 L2 L1' L2'. rewrite H, L1 in L1'. rewrite H, L2 in L2'.
    cbn in L1', L2'. injection L1' as <- <-. injection L2' as <- <-.
    apply (ag_in pair_eqb pair_eqb_eq) in L1, L2. split.
    + intros Hrs. exact (position_lt t r s _ Hrs L1 eq_refl).
    + intros Hp. destruct (Z_lt_le_dec r s) as [?|Hsr]; [assumption|]. pose proof (position_le t s r Hsr). lia.
Qed.

Lemma round_trip_dense v vr t sorted :
  consistent v vr t -> separable vr t -> sorting t sorted ->
  Forall (fun e => plain_line (save_line vr e)) t ->
  Permutation (map rank_of t) (map Z.of_nat (seq 0 (length t))) ->
  exists t', read_merges v (save_merges vr sorted) = Ok t' /\
    forall c1 c2, lookup_merge t' c1 c2 = lookup_merge t c1 c2.
Proof.
  intros C S So Pl D. destruct (round_trip v vr t sorted C S So Pl) as (t' & E & H).
  exists t'. split; [exact E|]. intros c1 c2. rewrite H.
  destruct (lookup_merge t c1 c2) as [[r n]|] eqn:L; [|reflexivity]. cbn.
  now rewrite (position_dense t sorted c1 c2 r n So D L).
Qed.

Lemma round_trip_results b sorted :
  consistent (b_vocab b) (b_vocab_r b) (b_merges b) -> separable (b_vocab_r b) (b_merges b) ->
  sorting (b_merges b) sorted ->
  Forall (fun e => plain_line (save_line (b_vocab_r b) e)) (b_merges b) ->
  exists t', read_merges (b_vocab b) (save_merges (b_vocab_r b) sorted) = Ok t' /\
    forall s, bpe_tokenize (with_merges b t') s = bpe_tokenize b s.
Proof.
  intros C S So Pl. destruct (round_trip _ _ _ sorted C S So Pl) as (t' & E & H).
  exists t'. split; [exact E|]. now apply tokenize_same_order, renumbered_same_order.
Qed.

Lemma accepts_all v lines es :
  Forall2 (fun l (e : (Z*Z)*Z) => exists x y, two_tokens l x y /\ vget x v = Some (fst (fst e)) /\
     vget y v = Some (snd (fst e)) /\ vget (x ++ y) v = Some (snd e)) lines es -> accepts v lines es.
Proof.
  induction 1 as [|l [[a b] n] ls es (x & y & T & Ha & Hb & Hn) F IH]; [constructor|].
  exact (acc_line v l ls es x y a b n T Ha Hb Hn IH).
Qed.

Lemma accepts_det v lines acc acc' : accepts v lines acc -> accepts v lines acc' -> acc = acc'.
Proof.
  intros A. revert acc'. induction A as [|line lines acc x y T K A IH|line lines acc x y a b n T Ka Kb Kn A IH];
    intros acc' A'; inversion A' as [|? ? ? x' y' T' K' A''|? ? ? x' y' a' b' n' T' Ka' Kb' Kn' A'']; subst;
    try reflexivity; try (apply split_two in T, T'; rewrite T in T'; injection T' as <- <-).
  - now apply IH.
  - destruct K; congruence.
  - destruct K'; congruence.
  - f_equal; [congruence|]. now apply IH.
Qed.

(** When every line gives a merge and no pair is repeated, line i has rank i. *)
Lemma create_line_order v lines es :
  Forall2 (fun l (e : (Z*Z)*Z) => exists x y, two_tokens l x y /\ vget x v = Some (fst (fst e)) /\
     vget y v = Some (snd (fst e)) /\ vget (x ++ y) v = Some (snd e)) lines es ->
  NoDup (map fst es) ->
  exists t, create_merges v lines = Ok t /\
    forall i c1 c2 n, nth_error es i = Some ((c1, c2), n) ->
      lookup_merge t c1 c2 = Some (Z.of_nat i, n).
Proof.
  intros F N. pose proof (accepts_all v lines es F) as A.
  destruct (create_merges_total v lines) as [[_ (t & E)]|[Hn _]].
  - exists t. split; [exact E|]. intros i c1 c2 n H.
    destruct (create_merges_ok v lines t E) as (acc & A' & L).
    rewrite (accepts_det v lines acc es A' A) in L. apply L. exists i. split; [|reflexivity].
    split; [exact H|]. intros j n' Hj K. pose proof (nth_error_nodup es i j _ _ _ N H K). lia.
  - exfalso. apply Hn, accepts_iff. eauto.
Qed.

Lemma long_line_fails v vr t sorted e :
  consistent v vr t -> separable vr t -> sorting t sorted ->
  In e t -> (65536 <= zlen (save_line vr e))%Z ->
  read_merges v (save_merges vr sorted) = Err.
Proof.
  intros C S [P So] I L. pose proof (entries_ok v vr t sorted C S P) as F. rewrite Forall_forall in F.
  unfold read_merges. rewrite save_merges_lines, (scan_too_long _ (save_line vr e)); [reflexivity| | |exact L].
  - intros l Il. apply in_map_iff in Il as (e' & <- & Ie). now apply (entry_no_nl v), F.
  - apply in_map. exact (Permutation_in _ P I).
Qed.
