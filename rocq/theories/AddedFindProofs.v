From Verif Require Import Base BaseProofs AddedVocabModel AddedVocabSpec.
Local Open Scope Z_scope.

Fixpoint greedy (l : list io_pair) (cur : Z) : list io_pair :=
  match l with
  | [] => []
  | p :: rest => if fst (snd p) <? cur then greedy rest cur else p :: greedy rest (snd (snd p))
  end.

Lemma select_greedy sort_id : sorts id_key sort_id ->
  forall fuel l cur, StronglySorted (fun a b => id_key a <= id_key b) l -> (length l <= fuel)%nat ->
  select sort_id fuel l cur = greedy l cur.
Proof.
  intros H. induction fuel as [|fuel IH]; intros [|p rest] cur S L; cbn in L; try lia; try reflexivity.
  assert (Es : sort_id (p :: rest) = p :: rest) by (now apply H).
  apply StronglySorted_inv in S as [S _]. cbn [select greedy]. destruct (fst (snd p) <? cur).
  - apply IH; [exact S|lia].
  - destruct rest as [|q rest]; [destruct fuel; reflexivity|]. rewrite Es. f_equal. apply IH; [exact S|]. cbn in *. lia.
Qed.

Lemma greedy_incl l : forall cur p, In p (greedy l cur) -> In p l.
Proof.
  induction l as [|q l IH]; intros cur p; cbn; [tauto|]. destruct (fst (snd q) <? cur).
  - intros H. right. eauto.
  - intros [<-|H]; [now left|right; eauto].
Qed.

Lemma greedy_sorted l : StronglySorted (fun a b => id_key a <= id_key b) l -> forall cur,
  StronglySorted (fun a b => id_key a <= id_key b) (greedy l cur).
Proof.
  induction 1 as [|p l S IH F]; intros cur; cbn; [constructor|]. destruct (fst (snd p) <? cur); [apply IH|].
  constructor; [apply IH|]. apply Forall_forall. intros q K. apply greedy_incl in K.
  rewrite Forall_forall in F. auto.
Qed.

(** Where the greedy choice leaves an occurrence out. *)
Lemma greedy_complete l : StronglySorted (fun a b => id_key a <= id_key b) l -> forall cur p, In p l ->
  In p (greedy l cur) \/ fst (snd p) < cur \/
  exists q, In q (greedy l cur) /\ id_key q <= id_key p /\ fst (snd p) < snd (snd q).
Proof.
  induction 1 as [|q l S IH F]; intros cur p K; [destruct K|]. cbn.
  destruct (Z.ltb_spec (fst (snd q)) cur) as [Hlt|Hge].
  - destruct K as [->|K]; [right; now left|]. apply IH, K.
  - destruct K as [->|K]; [left; now left|].
    rewrite Forall_forall in F. specialize (F p K).
    destruct (IH (snd (snd q)) p K) as [H|[H|(r & H1 & H2 & H3)]].
    + left. now right.
    + right. right. exists q. split; [now left|]. lia.
    + right. right. exists r. split; [now right|]. lia.
Qed.

Lemma fill_pieces ids total l : forall start,
  0 <= start <= total -> (forall p, In p l -> fst (snd p) < snd (snd p) <= total) ->
  pieces start total (fill ids start total (greedy l start)) .
Proof.
  induction l as [|[i [a b]] l IH]; intros start Hs H.
  - cbn. destruct (Z.eqb_spec start total); cbn; lia.
  - cbn [greedy fst snd]. pose proof (H _ (or_introl eq_refl)) as Hab. cbn in Hab.
    assert (Hl : forall p, In p l -> fst (snd p) < snd (snd p) <= total) by (intros p K; apply H; now right).
    destruct (Z.ltb_spec a start); [apply IH; auto|]. cbn [fill].
    assert (pieces b total (fill ids b total (greedy l b))) by (apply IH; [lia|exact Hl]).
    destruct (Z.ltb_spec start a); cbn [app pieces].
    + repeat split; try lia. assumption.
    + replace a with start by lia. repeat split; try lia. assumption.
Qed.

Lemma fill_labelled ids total l : forall start t r,
  In (Some t, r) (fill ids start total l) <-> exists p, In p l /\ t = nth (fst p) ids 0 /\ r = snd p.
Proof.
  induction l as [|[i [a b]] l IH]; intros start t r.
  - cbn. split.
    + destruct (start =? total); intros H; [destruct H|]. destruct H as [H|[]]. discriminate H.
    + intros (p & [] & _).
  - cbn [fill]. rewrite in_app_iff. cbn [In]. rewrite IH. split.
    + intros [H|[H|(p & K & R)]].
      * destruct (start <? a); [|destruct H]. destruct H as [H|[]]. discriminate H.
      * injection H as <- <-. exists (i, (a, b)). cbn. auto.
      * exists p. auto.
    + intros (p & [<-|K] & -> & ->).
      * right. left. reflexivity.
      * right. right. eauto.
Qed.

Lemma in_io_pairs found i r : In (i, r) (io_pairs found) <-> occurs found i r.
Proof.
  unfold io_pairs, occurs.
  assert (G : forall k, In (i, r) (concat (map (fun p => map (pair (fst p)) (snd p)) (combine (seq k (length found)) found)))
    <-> exists l, (k <= i)%nat /\ nth_error found (i - k) = Some l /\ In r l).
  { induction found as [|l found IH]; intros k; cbn.
    - split; [tauto|]. intros (l & _ & H & _). destruct (i - k)%nat; discriminate.
    - rewrite in_app_iff, in_map_iff, IH. split.
      + intros [(x & [= <- <-] & H)|(l' & Hk & H & H')].
        * exists l. rewrite Nat.sub_diag. auto.
        * exists l'. split; [lia|]. replace (i - k)%nat with (S (i - S k)) by lia. auto.
      + intros (l' & Hk & H & H'). destruct (Nat.eq_dec i k) as [->|Hne].
        * left. rewrite Nat.sub_diag in H. injection H as ->. exists r. auto.
        * right. exists l'. split; [lia|]. replace (i - k)%nat with (S (i - S k)) in H by lia. auto. }
  rewrite (G 0%nat). rewrite Nat.sub_0_r. split.
  - intros (l & _ & H). eauto.
  - intros (l & H). exists l. split; [lia|exact H].
Qed.

Lemma ordered_in lo total l : ordered_from lo total l -> forall r, In r l -> lo <= fst r < snd r /\ snd r <= total.
Proof.
  revert lo. induction l as [|[a b] l IH]; intros lo H r K; [destruct K|]. cbn in H. destruct H as [H1 H2].
  assert (Hb : b <= total).
  { clear -H2. revert b H2. induction l as [|[c d] l IH]; intros b; cbn; [lia|]. intros [? K]. apply IH in K. lia. }
  destruct K as [<-|K]; [cbn; lia|]. destruct (IH b H2 r K). lia.
Qed.

Lemma occurs_range total found i r : matches_ok total found -> occurs found i r -> 0 <= fst r < snd r /\ snd r <= total.
Proof.
  intros M (l & H & K). unfold matches_ok in M. rewrite Forall_forall in M.
  apply nth_error_In in H. exact (ordered_in 0 total l (M l H) r K).
Qed.

Section Find.
  Variable sort_start sort_id : list io_pair -> list io_pair.
  Hypothesis HS : sorts start_key sort_start.
  Hypothesis HI : sorts id_key sort_id.

  Definition candidates found := sort_id (sort_start (io_pairs found)).

  Lemma candidates_in found p : In p (candidates found) <-> occurs found (fst p) (snd p).
  Proof.
    destruct p as [i r]. rewrite <- in_io_pairs. unfold candidates. cbn [fst snd]. split; intros H.
    - apply (Permutation_in _ (Permutation_sym (proj1 (HS _)))).
      apply (Permutation_in _ (Permutation_sym (proj1 (HI _)))). exact H.
    - apply (Permutation_in _ (proj1 (HI _))). apply (Permutation_in _ (proj1 (HS _))). exact H.
  Qed.

  Lemma find_matches_eq total ids found : total <> 0 ->
    find_matches sort_start sort_id total ids found = fill ids 0 total (greedy (candidates found) 0).
  Proof.
    intros H. unfold find_matches. replace (total =? 0) with false by lia. fold (candidates found).
    rewrite select_greedy; auto. apply HI.
  Qed.

  Lemma find_pieces total ids found : 0 < total -> matches_ok total found ->
    pieces 0 total (find_matches sort_start sort_id total ids found).
  Proof.
    intros Ht M. rewrite find_matches_eq by lia. apply fill_pieces; [lia|].
    intros p K. apply candidates_in in K. apply (occurs_range total found _ _ M) in K. lia.
  Qed.

  Lemma find_labelled total ids found t r :
    In (Some t, r) (find_matches sort_start sort_id total ids found) ->
    exists i, occurs found i r /\ t = nth i ids 0.
  Proof.
    destruct (Z.eq_dec total 0) as [->|Hne].
    - cbn. intros [H|[]]. discriminate H.
    - rewrite find_matches_eq by exact Hne. rewrite fill_labelled. intros (p & K & -> & ->).
      apply greedy_incl, candidates_in in K. eauto.
  Qed.

  Lemma find_complete total ids found j s : total <> 0 -> matches_ok total found -> occurs found j s ->
    In (Some (nth j ids 0), s) (find_matches sort_start sort_id total ids found) \/
    exists i r, (i <= j)%nat /\ occurs found i r /\ fst s < snd r /\
      In (Some (nth i ids 0), r) (find_matches sort_start sort_id total ids found).
  Proof.
    intros Ht M O. rewrite find_matches_eq by exact Ht.
    assert (K : In (j, s) (candidates found)) by (now apply candidates_in).
    destruct (greedy_complete (candidates found) (proj1 (proj2 (HI _))) 0 (j, s) K) as [H|[H|(q & H1 & H2 & H3)]].
    - left. apply fill_labelled. exists (j, s). auto.
    - apply (occurs_range total found _ _ M) in O. cbn in H. lia.
    - right. exists (fst q), (snd q). split; [unfold id_key in H2; cbn in H2; lia|].
      split; [apply candidates_in; now apply greedy_incl in H1|]. split; [exact H3|].
      apply fill_labelled. exists q. auto.
  Qed.

  Lemma find_swallows total i0 i1 a b c d : 0 <= c < d -> d <= a < b -> b <= total ->
    find_matches sort_start sort_id total [i0; i1] [[(a, b)]; [(c, d)]] =
      (None, (0, a)) :: (Some i0, (a, b)) :: (if b =? total then [] else [(None, (b, total))]).
  Proof.
    intros H1 H2 H3. rewrite find_matches_eq by lia.
    assert (Ec : candidates [[(a, b)]; [(c, d)]] = [(0%nat, (a, b)); (1%nat, (c, d))]).
    { unfold candidates. pose proof (proj1 (HS (io_pairs [[(a, b)]; [(c, d)]]))) as P1.
      set (l1 := sort_start _) in *. destruct (HI l1) as (P2 & S2 & _). set (l2 := sort_id l1) in *.
      assert (P : Permutation [(0%nat, (a, b)); (1%nat, (c, d))] l2) by (exact (Permutation_trans P1 P2)).
      apply Permutation_length_2_inv in P as [->| ->]; [reflexivity|].
      apply StronglySorted_inv in S2 as [_ S2]. inversion S2 as [|? ? K]; subst. unfold id_key in K. cbn in K. lia. }
    rewrite Ec. cbn [greedy fst snd]. replace (a <? 0) with false by lia. replace (c <? b) with true by lia.
    cbn [fill nth]. replace (0 <? a) with true by lia. reflexivity.
  Qed.

  Lemma greedy_all lo total l : ordered_from lo total l ->
    greedy (map (pair 0%nat) l) lo = map (pair 0%nat) l.
  Proof.
    revert lo. induction l as [|[a b] l IH]; intros lo H; [reflexivity|]. cbn in *. destruct H as [H1 H2].
    replace (a <? lo) with false by lia. now rewrite IH.
  Qed.

  Lemma ordered_sorted lo total l : ordered_from lo total l ->
    StronglySorted (fun x y => start_key x <= start_key y) (map (pair 0%nat) l).
  Proof.
    revert lo. induction l as [|[a b] l IH]; intros lo H; [constructor|]. cbn [map]. destruct H as [H1 H2].
    constructor; [now apply (IH b)|]. apply Forall_forall. intros [k r] K. apply in_map_iff in K as (r' & [= <- <-] & K).
    destruct (ordered_in b total l H2 _ K). unfold start_key. cbn. lia.
  Qed.

  Lemma find_single total ids l r : total <> 0 -> ordered_from 0 total l -> In r l ->
    In (Some (nth 0 ids 0), r) (find_matches sort_start sort_id total ids [l]).
  Proof.
    intros Ht O K. rewrite find_matches_eq by exact Ht.
    assert (Ec : candidates [l] = map (pair 0%nat) l).
    { unfold candidates, io_pairs. cbn [length seq combine map concat fst snd]. rewrite app_nil_r.
      destruct (HS (map (pair 0%nat) l)) as (_ & _ & ->); [|now apply (ordered_sorted 0 total)].
      apply HI. clear. induction l as [|x l IH]; [constructor|]. cbn. constructor; [exact IH|].
      apply Forall_forall. intros y K. apply in_map_iff in K as (z & <- & _). unfold id_key. cbn. lia. }
    rewrite Ec, (greedy_all 0 total l O). apply fill_labelled. exists (0%nat, r). split; [now apply in_map|auto].
  Qed.
End Find.

(** Insertion sort satisfies [sorts]; used to show the hypotheses are met. *)
Section Isort.
  Variable key : io_pair -> Z.
  Fixpoint insert (x : io_pair) (l : list io_pair) : list io_pair :=
    match l with
    | [] => [x]
    | y :: l' => if key x <=? key y then x :: l else y :: insert x l'
    end.
  Fixpoint isort (l : list io_pair) : list io_pair :=
    match l with [] => [] | x :: l' => insert x (isort l') end.

  Lemma insert_perm x l : Permutation (x :: l) (insert x l).
  Proof.
    induction l as [|y l IH]; cbn; [reflexivity|]. destruct (key x <=? key y); [reflexivity|].
    rewrite perm_swap. now constructor.
  Qed.

  Lemma insert_sorted x l : StronglySorted (fun a b => key a <= key b) l ->
    StronglySorted (fun a b => key a <= key b) (insert x l).
  Proof.
    induction 1 as [|y l S IH F]; cbn; [repeat constructor|]. destruct (Z.leb_spec (key x) (key y)).
    - constructor; [now constructor|]. constructor; [lia|]. eapply Forall_impl; [|exact F]. cbn. intros; lia.
    - constructor; [exact IH|]. apply Forall_forall. intros z K.
      apply (Permutation_in _ (Permutation_sym (insert_perm x l))) in K as [<-|K]; [lia|].
      rewrite Forall_forall in F. auto.
  Qed.

  Lemma isort_sorts : sorts key isort.
  Proof.
    intros l. split; [|split].
    - induction l as [|x l IH]; cbn; [reflexivity|]. rewrite <- insert_perm. now constructor.
    - induction l as [|x l IH]; cbn; [constructor|]. now apply insert_sorted.
    - induction 1 as [|x l S IH F]; cbn; [reflexivity|]. rewrite IH. destruct l as [|y l]; [reflexivity|].
      cbn. inversion F; subst. replace (key x <=? key y) with true by lia. reflexivity.
  Qed.
End Isort.
