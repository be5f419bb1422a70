From Coq Require Import Permutation.
From Verif Require Import Base SliceModel SliceProofs HeapModel.
Ltac Zify.zify_post_hook ::= Z.div_mod_to_equations.

Lemma nth_error_upd {A} (l : list A) i j x :
  nth_error (upd l i x) j = if (j =? i) && (i <? length l) then Some x else nth_error l j.
Proof.
  revert i j; induction l as [|y l IH]; intros [|i] [|j]; cbn; try reflexivity.
  - now rewrite andb_false_r.
  - rewrite IH. replace (S i <? S (length l)) with (i <? length l) by lia. reflexivity.
Qed.

Lemma swap_length {A} (l : list A) i j : length (swap l i j) = length l.
Proof. unfold swap. destruct (nth_error l i), (nth_error l j); rewrite ?upd_length; reflexivity. Qed.

Lemma nth_error_swap {A} (l : list A) i j k :
  i < length l -> j < length l ->
  nth_error (swap l i j) k =
    if k =? j then nth_error l i else if k =? i then nth_error l j else nth_error l k.
Proof.
  intros Hi Hj. unfold swap.
  destruct (nth_error l i) as [x|] eqn:Ei; [|apply nth_error_None in Ei; lia].
  destruct (nth_error l j) as [y|] eqn:Ej; [|apply nth_error_None in Ej; lia].
  rewrite !nth_error_upd, upd_length.
  replace (j <? length l) with true by lia. replace (i <? length l) with true by lia.
  rewrite !andb_true_r. reflexivity.
Qed.

Lemma nth_error_split_upd {A} (l : list A) i x :
  i < length l -> upd l i x = firstn i l ++ x :: skipn (S i) l.
Proof.
  revert i; induction l as [|y l IH]; intros [|i] H; cbn in *; try lia; [reflexivity|].
  f_equal. apply IH. lia.
Qed.

Lemma upd_perm {A} (l : list A) i x y :
  nth_error l i = Some y -> Permutation (x :: l) (y :: upd l i x).
Proof.
  revert i; induction l as [|z l IH]; intros [|i] H; cbn in *; try discriminate.
  - injection H as ->. apply perm_swap.
  - rewrite perm_swap. rewrite (IH i H). rewrite perm_swap. reflexivity.
Qed.

Lemma swap_perm {A} (l : list A) i j : Permutation (swap l i j) l.
Proof.
  unfold swap. destruct (nth_error l i) as [x|] eqn:Ei; [|reflexivity].
  destruct (nth_error l j) as [y|] eqn:Ej; [|reflexivity].
  assert (Hi : i < length l) by (apply nth_error_Some; congruence).
  assert (E : nth_error (upd l i y) j = Some y).
  { rewrite nth_error_upd. replace (i <? length l) with true by lia.
    destruct (j =? i); [reflexivity|exact Ej]. }
  pose proof (upd_perm l i y x Ei) as P1.
  pose proof (upd_perm (upd l i y) j x y E) as P2.
  apply (Permutation_cons_inv (a := y)). rewrite <- P2. symmetry. exact P1.
Qed.

Section Heap.
  Context {A : Type}.
  Variable rank : A -> Z.
  Let gt (a b : A) : bool := (rank b <? rank a)%Z.

  Definition rk (l : list A) (i : nat) : Z :=
    match nth_error l i with Some x => rank x | None => 0%Z end.

  (** Every element is at least as large as its parent. *)
  Definition heap_ok (l : list A) : Prop :=
    forall i, 0 < i < length l -> (rk l ((i - 1) / 2) <= rk l i)%Z.

  Lemma rk_swap l i j k : i < length l -> j < length l ->
    rk (swap l i j) k = if k =? j then rk l i else if k =? i then rk l j else rk l k.
  Proof.
    intros Hi Hj. unfold rk. rewrite nth_error_swap by assumption.
    destruct (k =? j); [reflexivity|]. now destruct (k =? i).
  Qed.

  Lemma heap_ok_min l : heap_ok l -> forall i, i < length l -> (rk l 0 <= rk l i)%Z.
  Proof.
    intros H i. induction i as [i IH] using lt_wf_ind. intros Hi.
    destruct (Nat.eq_dec i 0) as [->|Hne]; [lia|].
    pose proof (H i ltac:(lia)). assert ((i - 1) / 2 < i) by lia.
    specialize (IH ((i - 1) / 2) ltac:(lia) ltac:(lia)). lia.
  Qed.

  Lemma bubble_up_perm fuel : forall l k, Permutation (bubble_up gt fuel l k) l.
  Proof.
    induction fuel as [|fuel IH]; intros l k; cbn [bubble_up]; [reflexivity|].
    destruct (k =? 0); [reflexivity|].
    destruct (nth_error l ((k - 1) / 2)), (nth_error l k); try reflexivity.
    destruct (gt _ _); [|reflexivity]. rewrite IH. apply swap_perm.
  Qed.

  Definition up_inv (l : list A) (k : nat) : Prop :=
    (forall i, 0 < i < length l -> i <> k -> (rk l ((i - 1) / 2) <= rk l i)%Z) /\
    (0 < k -> forall i, 0 < i < length l -> (i - 1) / 2 = k ->
       (rk l ((k - 1) / 2) <= rk l i)%Z).

  Lemma bubble_up_ok fuel : forall l k,
    k <= fuel -> k < length l -> up_inv l k -> heap_ok (bubble_up gt fuel l k).
  Proof.
    induction fuel as [|fuel IH]; intros l k Hf Hk [H1 H2]; cbn [bubble_up].
    - intros i Hi. apply H1; lia.
    - destruct (k =? 0) eqn:Ek.
      + intros i Hi. apply H1; lia.
      + set (p := (k - 1) / 2). assert (Hp : p < k) by (unfold p; lia).
        destruct (nth_error l p) as [pv|] eqn:Ep; [|apply nth_error_None in Ep; lia].
        destruct (nth_error l k) as [kv|] eqn:Ekv; [|apply nth_error_None in Ekv; lia].
        assert (Rp : rk l p = rank pv) by (unfold rk; now rewrite Ep).
        assert (Rk : rk l k = rank kv) by (unfold rk; now rewrite Ekv).
        destruct (gt pv kv) eqn:G; unfold gt in G.
        * apply IH; [lia|rewrite swap_length; lia|].
          split; rewrite swap_length.
          -- intros i Hi Hne. rewrite !rk_swap by lia.
             destruct (Nat.eq_dec i k) as [->|Hik].
             ++ rewrite Nat.eqb_refl. fold p.
                replace (p =? k) with false by lia. rewrite Nat.eqb_refl. lia.
             ++ replace (i =? k) with false by lia. replace (i =? p) with false by lia.
                destruct (Nat.eq_dec ((i - 1) / 2) k) as [E|E].
                ** rewrite E, Nat.eqb_refl. specialize (H2 ltac:(lia) i Hi E). fold p in H2. lia.
                ** replace ((i - 1) / 2 =? k) with false by lia.
                   destruct (Nat.eq_dec ((i - 1) / 2) p) as [E2|E2].
                   --- rewrite E2, Nat.eqb_refl. specialize (H1 i Hi Hik). rewrite E2 in H1. lia.
                   --- replace ((i - 1) / 2 =? p) with false by lia. now apply H1.
          -- intros Hp0 i Hi E. rewrite !rk_swap by lia.
             replace ((p - 1) / 2 =? k) with false by lia.
             replace ((p - 1) / 2 =? p) with false by lia.
             pose proof (H1 p ltac:(lia) ltac:(lia)) as Hpp.
             destruct (Nat.eq_dec i k) as [->|Hik].
             ++ rewrite Nat.eqb_refl. lia.
             ++ replace (i =? k) with false by lia. replace (i =? p) with false by lia.
                specialize (H1 i Hi Hik). rewrite E in H1. lia.
        * intros i Hi. destruct (Nat.eq_dec i k) as [->|Hik]; [fold p; lia|now apply H1].
  Qed.

  Lemma rk_app_l l x i : i < length l -> rk (l ++ [x]) i = rk l i.
  Proof. intros H. unfold rk. now rewrite nth_error_app1. Qed.

  Lemma heap_push_ok l x : heap_ok l -> heap_ok (heap_push gt l x).
  Proof.
    intros H. unfold heap_push. apply bubble_up_ok; [lia|rewrite app_length; cbn; lia|].
    split; rewrite app_length; cbn [length].
    - intros i Hi Hne. rewrite !rk_app_l by lia. apply H. lia.
    - intros Hk i Hi E. lia.
  Qed.

  Lemma heap_push_perm l x : Permutation (heap_push gt l x) (x :: l).
  Proof.
    unfold heap_push. rewrite bubble_up_perm. symmetry. apply Permutation_cons_append.
  Qed.

  Lemma bubble_down_perm fuel : forall l k, Permutation (bubble_down gt fuel l k) l.
  Proof.
    induction fuel as [|fuel IH]; intros l k; cbn [bubble_down]; [reflexivity|].
    destruct (nth_error l (2 * k + 1)), (nth_error l k); try reflexivity.
    destruct (nth_error l (2 * k + 2)) as [rv|]; [destruct (gt _ rv)|].
    all: destruct (gt _ _); [|reflexivity]; rewrite IH; apply swap_perm.
  Qed.

  Definition down_inv (l : list A) (k : nat) : Prop :=
    (forall i, 0 < i < length l -> (i - 1) / 2 <> k -> (rk l ((i - 1) / 2) <= rk l i)%Z) /\
    (0 < k -> forall i, 0 < i < length l -> (i - 1) / 2 = k ->
       (rk l ((k - 1) / 2) <= rk l i)%Z).

  Lemma bubble_down_ok fuel : forall l k,
    length l <= fuel + k -> down_inv l k -> heap_ok (bubble_down gt fuel l k).
  Proof.
    induction fuel as [|fuel IH]; intros l k Hf [H1 H2]; cbn [bubble_down].
    - intros i Hi. apply H1; lia.
    - destruct (nth_error l (2 * k + 1)) as [lv|] eqn:El.
      2:{ apply nth_error_None in El. intros i Hi. apply H1; lia. }
      assert (Hl : 2 * k + 1 < length l) by (apply nth_error_Some; congruence).
      destruct (nth_error l k) as [kv|] eqn:Ekv; [|apply nth_error_None in Ekv; lia].
      assert (Rl : rk l (2 * k + 1) = rank lv) by (unfold rk; now rewrite El).
      assert (Rk : rk l k = rank kv) by (unfold rk; now rewrite Ekv).
      destruct (match nth_error l (2 * k + 2) with
                | Some rv => if gt lv rv then (2 * k + 2, rv) else (2 * k + 1, lv)
                | None => (2 * k + 1, lv)
                end) as [sm sv] eqn:Es.
      assert (Hsm : (sm = 2 * k + 1 \/ sm = 2 * k + 2) /\ sm < length l /\ rk l sm = rank sv /\
                (forall i, 0 < i < length l -> (i - 1) / 2 = k -> (rank sv <= rk l i)%Z)).
      { destruct (nth_error l (2 * k + 2)) as [rv|] eqn:Er.
        - assert (Hr : 2 * k + 2 < length l) by (apply nth_error_Some; congruence).
          assert (Rr : rk l (2 * k + 2) = rank rv) by (unfold rk; now rewrite Er).
          destruct (gt lv rv) eqn:G; unfold gt in G; injection Es as <- <-.
          + split; [now right|]. split; [exact Hr|]. split; [exact Rr|].
            intros i Hi E. assert (i = 2 * k + 1 \/ i = 2 * k + 2) as [->| ->] by lia; lia.
          + split; [now left|]. split; [exact Hl|]. split; [exact Rl|].
            intros i Hi E. assert (i = 2 * k + 1 \/ i = 2 * k + 2) as [->| ->] by lia; lia.
        - apply nth_error_None in Er. injection Es as <- <-.
          split; [now left|]. split; [exact Hl|]. split; [exact Rl|].
          intros i Hi E. assert (i = 2 * k + 1) as -> by lia. lia. }
      destruct Hsm as (Hsm & Hsl & Rs & Hmin).
      destruct (gt kv sv) eqn:G; unfold gt in G.
      + apply IH; [rewrite swap_length; lia|].
        split; rewrite swap_length.
        * intros i Hi Hne. rewrite !rk_swap by lia.
          destruct (Nat.eq_dec i sm) as [->|His].
          -- rewrite Nat.eqb_refl. assert ((sm - 1) / 2 = k) as -> by lia.
             replace (k =? sm) with false by lia. rewrite Nat.eqb_refl. lia.
          -- replace (i =? sm) with false by lia.
             replace ((i - 1) / 2 =? sm) with false by lia.
             destruct (Nat.eq_dec i k) as [->|Hik].
             ++ rewrite Nat.eqb_refl. replace ((k - 1) / 2 =? k) with false by lia.
                specialize (H2 ltac:(lia) sm ltac:(lia) ltac:(lia)). lia.
             ++ replace (i =? k) with false by lia.
                destruct (Nat.eq_dec ((i - 1) / 2) k) as [E|E].
                ** rewrite E, Nat.eqb_refl. specialize (Hmin i Hi E). lia.
                ** replace ((i - 1) / 2 =? k) with false by lia. now apply H1.
        * intros Hsm0 i Hi E. rewrite !rk_swap by lia.
          assert ((sm - 1) / 2 = k) as -> by lia.
          replace (k =? sm) with false by lia. rewrite Nat.eqb_refl.
          replace (i =? sm) with false by lia. replace (i =? k) with false by lia.
          specialize (H1 i Hi ltac:(lia)). rewrite E in H1. lia.
      + intros i Hi. destruct (Nat.eq_dec ((i - 1) / 2) k) as [E|E].
        * rewrite E. specialize (Hmin i Hi E). lia.
        * now apply H1.
  Qed.

  Lemma nth_error_removelast (l : list A) i :
    i < length l - 1 -> nth_error (removelast l) i = nth_error l i.
  Proof.
    intros H. destruct l as [|x l] using rev_ind; [cbn in H; lia|].
    rewrite removelast_last. rewrite app_length in H; cbn in H.
    rewrite nth_error_app1 by lia. reflexivity.
  Qed.

  Lemma removelast_length (l : list A) : length (removelast l) = length l - 1.
  Proof.
    destruct l as [|x l] using rev_ind; [reflexivity|].
    rewrite removelast_last, app_length. cbn. lia.
  Qed.

  Lemma heap_pop_perm l x l' : heap_pop gt l = Some (x, l') -> Permutation l (x :: l').
  Proof.
    unfold heap_pop. destruct l as [|y l0] eqn:E; [discriminate|]. rewrite <- E.
    intros [= <- <-]. rewrite bubble_down_perm.
    assert (Hlen : 0 < length l) by (rewrite E; cbn; lia).
    assert (Hlast : nth_error (swap l 0 (length l - 1)) (length l - 1) = Some y).
    { rewrite nth_error_swap by lia. rewrite Nat.eqb_refl, E. reflexivity. }
    rewrite <- (swap_perm l 0 (length l - 1)) at 1.
    set (w := swap l 0 (length l - 1)) in *.
    assert (Hw : length w = length l) by apply swap_length.
    assert (w <> []) as Hne by (intros C; rewrite C in Hw; cbn in Hw; lia).
    rewrite (app_removelast_last y Hne) at 1.
    assert (last w y = y) as ->.
    { rewrite (app_removelast_last y Hne) in Hlast.
      rewrite nth_error_app2 in Hlast by (rewrite removelast_length; lia).
      rewrite removelast_length in Hlast.
      replace (length l - 1 - (length w - 1)) with 0 in Hlast by lia.
      cbn in Hlast. now injection Hlast. }
    symmetry. apply Permutation_cons_append.
  Qed.

  Lemma heap_pop_ok l x l' : heap_ok l -> heap_pop gt l = Some (x, l') ->
    heap_ok l' /\ forall y, In y l -> (rank x <= rank y)%Z.
  Proof.
    intros H Hpop. unfold heap_pop in Hpop. destruct l as [|z l0] eqn:E; [discriminate|].
    rewrite <- E in *. injection Hpop as <- <-.
    assert (Hlen : 0 < length l) by (rewrite E; cbn; lia).
    assert (R0 : rk l 0 = rank z) by (rewrite E; reflexivity).
    split.
    - set (w := removelast (swap l 0 (length l - 1))).
      assert (Hw : length w = length l - 1).
      { unfold w. now rewrite removelast_length, swap_length. }
      assert (Rw : forall i, 0 < i < length w -> rk w i = rk l i).
      { intros i Hi. unfold rk, w. rewrite nth_error_removelast by (rewrite swap_length; lia).
        rewrite nth_error_swap by lia. replace (i =? length l - 1) with false by lia.
        now replace (i =? 0) with false by lia. }
      apply bubble_down_ok; [lia|]. split.
      + intros i Hi Hne. rewrite !Rw by lia. apply H. lia.
      + lia.
    - intros y Hy. apply In_nth_error in Hy as (i & Hi).
      assert (i < length l) by (apply nth_error_Some; congruence).
      pose proof (heap_ok_min l H i ltac:(lia)) as Hm. rewrite R0 in Hm.
      unfold rk in Hm. now rewrite Hi in Hm.
  Qed.

  Lemma heap_pop_none l : heap_pop gt l = None <-> l = [].
  Proof. destruct l; cbn; split; congruence. Qed.

  Lemma heap_ok_nil : heap_ok [].
  Proof. intros i Hi. cbn in Hi. lia. Qed.
End Heap.
