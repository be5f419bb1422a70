(** The reference procedure: correctness and uniqueness of its result. *)
From Verif Require Import Base BpeSpec BpeModel BpeProofs.

Section Ref.
  Variable t : table.

  Lemma best_rank_cons c1 l1 c2 l2 l' :
    best_rank t ((c1, l1) :: (c2, l2) :: l') =
    match t c1 c2, best_rank t ((c2, l2) :: l') with
    | Some (r, _), Some r' => Some (Z.min r r')
    | Some (r, _), None => Some r
    | None, o => o
    end.
  Proof. reflexivity. Qed.

  Lemma best_rank_none l : best_rank t l = None -> exhausted t l.
  Proof.
    induction l as [|[c1 l1] l IH]; intros H A B d1 m1 d2 m2 E.
    - destruct A; discriminate.
    - destruct l as [|[c2 l2] l'].
      { destruct A as [|x [|y A]]; discriminate E. }
      rewrite best_rank_cons in H.
      destruct (t c1 c2) as [[r n]|] eqn:Et.
      { destruct (best_rank t ((c2, l2) :: l')); discriminate H. }
      destruct A as [|x A]; cbn in E.
      + injection E as -> -> -> -> ->. exact Et.
      + injection E as _ E. eapply IH; [exact H|exact E].
  Qed.

  Lemma best_rank_some l r : best_rank t l = Some r ->
    merge_step t r l (merge_leftmost t r l) /\ lowest_rank t r l.
  Proof.
    revert r; induction l as [|[c1 l1] l IH]; intros r H; [discriminate|].
    destruct l as [|[c2 l2] l']; [discriminate|].
    rewrite best_rank_cons in H.
    change (merge_leftmost t r ((c1, l1) :: (c2, l2) :: l')) with
      (match t c1 c2 with
      | Some (r', new) =>
          if (r' =? r)%Z then (new, (l1 + l2)%Z) :: l'
          else (c1, l1) :: merge_leftmost t r ((c2, l2) :: l')
      | None => (c1, l1) :: merge_leftmost t r ((c2, l2) :: l')
      end).
    assert (Low : forall r', (forall ra na, t c1 c2 = Some (ra, na) -> (r' <= ra)%Z) ->
              lowest_rank t r' ((c2, l2) :: l') -> lowest_rank t r' ((c1, l1) :: (c2, l2) :: l')).
    { intros r' H1 H2 A B d1 m1 d2 m2 r0 n0 E Et. destruct A as [|x A]; cbn in E.
      - injection E as -> -> -> -> ->. eapply H1; eassumption.
      - injection E as _ E. eapply H2; [exact E|exact Et]. }
    assert (Tail : forall r', merge_step t r' ((c2, l2) :: l') (merge_leftmost t r' ((c2, l2) :: l')) ->
              merge_step t r' ((c1, l1) :: (c2, l2) :: l') ((c1, l1) :: merge_leftmost t r' ((c2, l2) :: l'))).
    { intros r' Hs. inversion Hs as [A B d1 m1 d2 m2 r0 n0 Ht E1 E2]; subst.
      apply (MergeStep t ((c1, l1) :: A) B d1 m1 d2 m2 r' n0 Ht). }
    destruct (t c1 c2) as [[ra na]|] eqn:Et.
    - destruct (best_rank t ((c2, l2) :: l')) as [rb|] eqn:Eb; injection H as <-.
      + destruct (IH rb Eb) as [Hs Hl].
        destruct (ra =? Z.min ra rb)%Z eqn:Em.
        * assert (Z.min ra rb = ra) as -> by lia. split.
          -- apply (MergeStep t [] l' c1 l1 c2 l2 ra na Et).
          -- apply Low; [intros ? ? [= <- <-]; lia|].
             intros A B d1 m1 d2 m2 r0 n0 E Ht. specialize (Hl _ _ _ _ _ _ _ _ E Ht). lia.
        * assert (Z.min ra rb = rb) as -> by lia. split; [now apply Tail|].
          apply Low; [intros ? ? [= <- <-]; lia|exact Hl].
      + rewrite Z.eqb_refl. split.
        * apply (MergeStep t [] l' c1 l1 c2 l2 ra na Et).
        * apply Low; [intros ? ? [= <- <-]; lia|].
          intros A B d1 m1 d2 m2 r0 n0 E Ht.
          rewrite (best_rank_none _ Eb _ _ _ _ _ _ E) in Ht. discriminate.
    - destruct (IH r H) as [Hs Hl]. split; [now apply Tail|].
      apply Low; [intros ? ? [=]|exact Hl].
  Qed.

  Lemma merge_step_length r l l' : merge_step t r l l' -> length l = S (length l').
  Proof. intros [A B c1 l1 c2 l2 r0 n H]. rewrite !app_length. cbn. lia. Qed.

  Lemma reference_f_spec f : forall l, length l <= f ->
    ranked_steps t l (reference_f t f l) /\ exhausted t (reference_f t f l).
  Proof.
    induction f as [|f IH]; intros l Hl; cbn [reference_f].
    - split; [constructor|]. destruct l; [|cbn in Hl; lia]. intros A B ? ? ? ? E. destruct A; discriminate.
    - destruct (best_rank t l) as [r|] eqn:E.
      + destruct (best_rank_some l r E) as [Hs Hlow]. pose proof (merge_step_length _ _ _ Hs) as HL.
        destruct (IH (merge_leftmost t r l) ltac:(lia)) as [H1 H2].
        split; [|exact H2]. eapply RankedMore; eassumption.
      + split; [constructor|]. now apply best_rank_none.
  Qed.

  Lemma reference_spec l : ranked_steps t l (reference t l) /\ exhausted t (reference t l).
  Proof. apply reference_f_spec. lia. Qed.

  (** Ranks determine pairs, no pair of equal symbols, and pairs containing a
      merge result rank after that merge. *)
  Hypothesis rank_inj : forall c1 c2 d1 d2 r n m,
    t c1 c2 = Some (r, n) -> t d1 d2 = Some (r, m) -> c1 = d1 /\ c2 = d2.
  Hypothesis no_twins : forall c, t c c = None.
  Hypothesis later : forall c1 c2 r n, t c1 c2 = Some (r, n) ->
    forall c r' n', t n c = Some (r', n') \/ t c n = Some (r', n') -> (r < r')%Z.

  Lemma lowest_after A B c1 l1 c2 l2 r n :
    t c1 c2 = Some (r, n) -> lowest_rank t r (A ++ (c1, l1) :: (c2, l2) :: B) ->
    lowest_rank t r (A ++ (n, (l1 + l2)%Z) :: B).
  Proof.
    intros Ht Hl A' B' d1 m1 d2 m2 r' n' E Ht'.
    apply app_eq_app in E as (M & [[EA EB]|[EA EB]]).
    - (* A = A' ++ M,  (d1..)::(d2..)::B' = M ++ (n..) :: B *)
      destruct M as [|x M]; cbn in EB.
      + injection EB as <- _ EB. specialize (later _ _ _ _ Ht d2 r' n' (or_introl Ht')). lia.
      + injection EB as <- EB. destruct M as [|y M]; cbn in EB.
        * injection EB as <- _ EB. specialize (later _ _ _ _ Ht d1 r' n' (or_intror Ht')). lia.
        * injection EB as <- EB. subst A B'. eapply Hl; [|exact Ht'].
          rewrite <- app_assoc. cbn. reflexivity.
    - (* A' = A ++ M *)
      destruct M as [|x M]; cbn in EB.
      + injection EB as <- _ EB. specialize (later _ _ _ _ Ht d2 r' n' (or_introl Ht')). lia.
      + injection EB as <- EB. subst B. eapply (Hl (A ++ (c1, l1) :: (c2, l2) :: M) B');
          [|exact Ht'].
        rewrite <- app_assoc. reflexivity.
  Qed.

  Definition lstep l l' := exists r, merge_step t r l l' /\ lowest_rank t r l.

  Lemma join_lt A M B c1 c2 l1 l2 l1' l2' r n :
    t c1 c2 = Some (r, n) ->
    lowest_rank t r (A ++ (c1, l1) :: (c2, l2) :: M ++ (c1, l1') :: (c2, l2') :: B) ->
    exists c,
      lstep (A ++ (n, (l1 + l2)%Z) :: M ++ (c1, l1') :: (c2, l2') :: B) c /\
      lstep (A ++ (c1, l1) :: (c2, l2) :: M ++ (n, (l1' + l2')%Z) :: B) c.
  Proof.
    intros Ht Hl.
    exists (A ++ (n, (l1 + l2)%Z) :: M ++ (n, (l1' + l2')%Z) :: B). split; exists r; split.
    - pose proof (MergeStep t (A ++ (n, (l1 + l2)%Z) :: M) B c1 l1' c2 l2' r n Ht) as Hs.
      rewrite <- !app_assoc in Hs. exact Hs.
    - now apply (lowest_after A _ c1 l1 c2 l2 r n Ht).
    - apply (MergeStep t A _ c1 l1 c2 l2 r n Ht).
    - pose proof (lowest_after (A ++ (c1, l1) :: (c2, l2) :: M) B c1 l1' c2 l2' r n Ht) as H.
      rewrite <- !app_assoc in H. exact (H Hl).
  Qed.

  Lemma diamond l a b : lstep l a -> lstep l b -> a = b \/ exists c, lstep a c /\ lstep b c.
  Proof.
    intros (r & Ha & La) (r' & Hb & Lb).
    destruct Ha as [A B c1 l1 c2 l2 r n Ht].
    remember (A ++ (c1, l1) :: (c2, l2) :: B) as l0 eqn:E.
    destruct Hb as [A' B' d1 m1 d2 m2 r' n' Ht'].
    assert (r' = r) as ->.
    { pose proof (La _ _ _ _ _ _ _ _ eq_refl Ht'). pose proof (Lb _ _ _ _ _ _ _ _ E Ht). lia. }
    destruct (rank_inj _ _ _ _ _ _ _ Ht Ht') as [<- <-].
    assert (n' = n) as -> by congruence. clear Lb. rewrite E in La.
    symmetry in E. apply app_eq_app in E as (M & [[EA EB]|[EA EB]]).
    - (* A = A' ++ M *)
      destruct M as [|x M]; cbn in EB.
      + injection EB as <- <- <-. subst A. rewrite app_nil_r. now left.
      + injection EB as <- EB. destruct M as [|y M]; cbn in EB.
        { injection EB as E1 E2 E3. rewrite <- E1, no_twins in Ht. discriminate. }
        injection EB as <- EB. subst A B'.
        rewrite <- app_assoc in La. cbn in La.
        destruct (join_lt A' M B c1 c2 m1 m2 l1 l2 r n Ht La) as (c & H1 & H2).
        right. exists c. rewrite <- !app_assoc. cbn. split; [exact H2|exact H1].
    - (* A' = A ++ M *)
      destruct M as [|x M]; cbn in EB.
      + injection EB as <- <- <-. subst A'. rewrite app_nil_r. now left.
      + injection EB as <- EB. destruct M as [|y M]; cbn in EB.
        { injection EB as E1 E2 E3. rewrite E1, no_twins in Ht. discriminate. }
        injection EB as <- EB. subst A' B.
        destruct (join_lt A M B' c1 c2 l1 l2 m1 m2 r n Ht La) as (c & H1 & H2).
        right. exists c. rewrite <- !app_assoc. cbn. split; [exact H1|exact H2].
  Qed.

  Lemma exhausted_no_step l l' r : exhausted t l -> merge_step t r l l' -> False.
  Proof.
    intros H Hs. destruct Hs as [A B c1 l1 c2 l2 r n Ht].
    rewrite (H _ _ _ _ _ _ eq_refl) in Ht. discriminate.
  Qed.

  Lemma unique_result k : forall l x y, length l <= k ->
    ranked_steps t l x -> exhausted t x -> ranked_steps t l y -> exhausted t y -> x = y.
  Proof.
    induction k as [|k IH]; intros l x y Hk Hx Ex Hy Ey.
    - destruct Hx as [l|r l a x Hs _ _]; [destruct Hy as [l|r l a y Hs _ _]; [reflexivity|]|];
        apply merge_step_length in Hs; lia.
    - destruct Hx as [l|r l a x Hs Hl Hx].
      { destruct Hy as [l|r l a y Hs _ _]; [reflexivity|]. exfalso. exact (exhausted_no_step _ _ _ Ex Hs). }
      destruct Hy as [l|r' l b y Hs' Hl' Hy].
      { exfalso. eapply exhausted_no_step; [exact Ey|exact Hs]. }
      pose proof (merge_step_length _ _ _ Hs) as La. pose proof (merge_step_length _ _ _ Hs') as Lb.
      destruct (diamond l a b) as [<-|(c & (r1 & Hc & Lc) & (r2 & Hc' & Lc'))].
      + now exists r.
      + now exists r'.
      + eapply (IH a); eauto. lia.
      + destruct (reference_spec c) as [Rz Ez].
        transitivity (reference t c).
        * eapply (IH a); eauto; [lia|]. eapply RankedMore; eassumption.
        * symmetry. eapply (IH b); eauto; [lia|]. eapply RankedMore; eassumption.
  Qed.

  Lemma ranked_is_reference l x : ranked_steps t l x -> exhausted t x -> x = reference t l.
  Proof.
    intros H E. destruct (reference_spec l) as [R1 R2].
    eapply (unique_result (length l) l); eauto.
  Qed.
End Ref.
