From Coq Require Import Permutation Sorted.
From Verif Require Import Base SliceModel SliceProofs EncodingProofs Utf8Model Utf8Proofs
  HeapModel HeapProofs BpeModel BpeSpec.

(** * The linked list *)

Definition link (A : list nat) (q : Z) : Z :=
  match A with [] => q | j :: _ => Z.of_nat j end.

(** The positions [A] form a doubly linked list of live symbols of [w], after
    [p] and before [q]. *)
Fixpoint chain (w : list sym) (p : Z) (A : list nat) (q : Z) : Prop :=
  match A with
  | [] => True
  | i :: A' =>
      (exists s, nth_error w i = Some s /\ (0 < s_len s)%Z /\ s_prev s = p /\
                 s_next s = link A' q) /\
      chain w (Z.of_nat i) A' q
  end.

Definition last_link (p : Z) (A : list nat) : Z := last (map Z.of_nat A) p.

Lemma last_indep {A} (l : list A) x d1 d2 : last (x :: l) d1 = last (x :: l) d2.
Proof. revert x; induction l as [|y l IH]; intros x; [reflexivity|]. apply (IH y). Qed.

Lemma last_link_cons p i A : last_link p (i :: A) = last_link (Z.of_nat i) A.
Proof.
  unfold last_link. destruct A as [|j A]; [reflexivity|]. cbn [map].
  apply (last_indep (map Z.of_nat A) (Z.of_nat j)).
Qed.

Lemma link_app A B q : link (A ++ B) q = link A (link B q).
Proof. destruct A; reflexivity. Qed.

Lemma chain_app w A : forall p B q,
  chain w p (A ++ B) q <-> chain w p A (link B q) /\ chain w (last_link p A) B q.
Proof.
  induction A as [|i A IH]; intros p B q; cbn [app chain].
  - unfold last_link. cbn. tauto.
  - rewrite IH, link_app, last_link_cons. tauto.
Qed.

Lemma chain_frame w w' A : forall p q,
  (forall i, In i A -> nth_error w' i = nth_error w i) -> chain w p A q -> chain w' p A q.
Proof.
  induction A as [|i A IH]; intros p q H; cbn [chain]; [tauto|].
  intros [(s & E & R) C]. split.
  - exists s. rewrite H by (now left). tauto.
  - apply IH; [|exact C]. intros j Hj. apply H. now right.
Qed.

(** [w] represents the list of positions [L]. *)
Record rep (w : list sym) (L : list nat) : Prop := {
  rep_chain : chain w (-1) L (-1);
  rep_sorted : StronglySorted lt L;
  rep_dead : forall i s, nth_error w i = Some s -> ~ In i L -> s_len s = 0%Z;
}.

Definition cof (w : list sym) (i : nat) : Z :=
  match nth_error w i with Some s => s_c s | None => 0%Z end.
Definition lof (w : list sym) (i : nat) : Z :=
  match nth_error w i with Some s => s_len s | None => 0%Z end.
Definition view (w : list sym) (L : list nat) : list BpeSpec.seg :=
  map (fun i => (cof w i, lof w i)) L.

Lemma chain_in w p A q i : chain w p A q -> In i A ->
  exists s, nth_error w i = Some s /\ (0 < s_len s)%Z.
Proof.
  revert p; induction A as [|j A IH]; intros p; cbn [chain In]; [tauto|].
  intros [(s & E & P & _) C] [->|H]; [now exists s|]. eauto.
Qed.

Lemma sorted_NoDup L : StronglySorted lt L -> NoDup L.
Proof.
  induction 1 as [|i L H IH F]; constructor; [|exact IH].
  intros C. rewrite Forall_forall in F. specialize (F i C). lia.
Qed.

Lemma sorted_remove A i j B :
  StronglySorted lt (A ++ i :: j :: B) -> StronglySorted lt (A ++ i :: B).
Proof.
  induction A as [|a A IH]; cbn [app]; intros H; inversion H as [|? ? H1 H2]; subst.
  - inversion H1; subst. inversion H2; subst. constructor; assumption.
  - constructor; [now apply IH|]. rewrite Forall_forall in *. intros x Hx. apply H2.
    apply in_app_or in Hx as [Hx|[Hx|Hx]]; apply in_or_app;
      [now left|right; now left|right; right; now right].
Qed.

Lemma sorted_ext : forall L1 L2 : list nat,
  StronglySorted lt L1 -> StronglySorted lt L2 -> (forall i, In i L1 <-> In i L2) -> L1 = L2.
Proof.
  induction L1 as [|a L1 IH]; intros [|b L2] S1 S2 H; try reflexivity.
  - exfalso. apply (H b). now left.
  - exfalso. apply (H a). now left.
  - inversion S1 as [|? ? S1' F1]; subst. inversion S2 as [|? ? S2' F2]; subst.
    rewrite Forall_forall in F1, F2.
    assert (a = b) as ->.
    { destruct (proj1 (H a) (or_introl eq_refl)) as [e|Ia]; [now symmetry|].
      destruct (proj2 (H b) (or_introl eq_refl)) as [e|Ib]; [now symmetry|].
      specialize (F1 _ Ib). specialize (F2 _ Ia). lia. }
    f_equal. apply IH; [assumption..|]. intros i. specialize (H i). cbn in H.
    split; intros Hi.
    + destruct (proj1 H (or_intror Hi)) as [<-|]; [|assumption]. specialize (F1 _ Hi). lia.
    + destruct (proj2 H (or_intror Hi)) as [<-|]; [|assumption]. specialize (F2 _ Hi). lia.
Qed.

Lemma filter_index {A} (f : A -> bool) (w : list A) : forall k,
  filter f w = concat (map (fun i => match nth_error w (i - k) with
                                     | Some s => if f s then [s] else []
                                     | None => [] end) (seq k (length w))).
Proof.
  induction w as [|s w IH]; intros k; [reflexivity|]. cbn [filter length seq map concat].
  rewrite Nat.sub_diag. cbn [nth_error].
  rewrite (IH (S k)).
  assert (E : forall l, (forall i, In i l -> k < i) ->
    concat (map (fun i => match nth_error w (i - S k) with Some s0 => if f s0 then [s0] else [] | None => [] end) l)
    = concat (map (fun i => match nth_error (s :: w) (i - k) with Some s0 => if f s0 then [s0] else [] | None => [] end) l)).
  { intros l Hl. f_equal. apply map_ext_in. intros i Hi. specialize (Hl i Hi).
    replace (i - k) with (S (i - S k)) by lia. reflexivity. }
  rewrite E. 2:{ intros i Hi. apply in_seq in Hi. lia. }
  destruct (f s); reflexivity.
Qed.

Lemma seq_sorted n : forall k, StronglySorted lt (seq k n).
Proof.
  induction n as [|n IH]; intros k; cbn; constructor; [apply IH|].
  apply Forall_forall. intros i Hi. apply in_seq in Hi. lia.
Qed.

Lemma filter_sorted (f : nat -> bool) L : StronglySorted lt L -> StronglySorted lt (filter f L).
Proof.
  induction 1 as [|i L H IH F]; cbn; [constructor|]. destruct (f i); [|exact IH].
  constructor; [exact IH|]. rewrite Forall_forall in *. intros j Hj.
  apply filter_In in Hj as [Hj _]. now apply F.
Qed.

Lemma rep_filter w L : rep w L ->
  L = filter (fun i => match nth_error w i with Some s => negb (s_len s =? 0)%Z | None => false end)
             (seq 0 (length w)).
Proof.
  intros [C S D]. apply sorted_ext; [exact S|apply filter_sorted, seq_sorted|].
  intros i. rewrite filter_In, in_seq. split.
  - intros Hi. destruct (chain_in _ _ _ _ _ C Hi) as (s & E & P). rewrite E.
    assert (i < length w) by (apply nth_error_Some; congruence). lia.
  - intros [Hr Hf]. destruct (nth_error w i) as [s|] eqn:E; [|discriminate].
    destruct (in_dec Nat.eq_dec i L) as [|n]; [assumption|].
    rewrite (D i s E n) in Hf. discriminate.
Qed.

Lemma rep_remove w L : rep w L ->
  map (fun s => (s_c s, s_len s)) (remove_symbols w) = view w L.
Proof.
  intros R. rewrite (rep_filter w L R). unfold remove_symbols, view.
  rewrite (filter_index _ w 0).
  rewrite concat_map, map_map.
  induction (seq 0 (length w)) as [|i l IH]; [reflexivity|].
  cbn [map concat filter]. rewrite IH. rewrite Nat.sub_0_r. unfold cof, lof at 2.
  destruct (nth_error w i) as [s|] eqn:E; [|reflexivity].
  destruct (negb (s_len s =? 0)%Z); [|reflexivity].
  cbn. unfold cof, lof. now rewrite E.
Qed.

(** * Pushing *)

Lemma push_in x q e : In e (qpush q x) <-> e = x \/ In e q.
Proof.
  unfold qpush, mrg_gt.
  pose proof (heap_push_perm m_rank q x) as P.
  split; intros H.
  - apply (Permutation_in _ P) in H. destruct H; [left; congruence|now right].
  - apply (Permutation_in _ (Permutation_sym P)). destruct H; [left; congruence|now right].
Qed.

Lemma push_length x q : length (qpush q x) = S (length q).
Proof. apply (Permutation_length (heap_push_perm m_rank q x)). Qed.

Lemma pop_spec q top q1 : qpop q = Some (top, q1) ->
  length q = S (length q1) /\ (forall e, In e q <-> e = top \/ In e q1).
Proof.
  intros H. pose proof (heap_pop_perm m_rank q top q1 H) as P. split.
  - rewrite (Permutation_length P). reflexivity.
  - intros e; split; intros I.
    + apply (Permutation_in _ P) in I. destruct I; [left; congruence|now right].
    + apply (Permutation_in _ (Permutation_sym P)). destruct I; [left; congruence|now right].
Qed.

Lemma pop_none q : qpop q = None -> q = [].
Proof. intros H. now apply (heap_pop_none m_rank) in H. Qed.

Lemma push_pair_spec t q pos a b e :
  In e (push_pair t q pos a b) <->
  In e q \/ exists r n, lookup_merge t (s_c a) (s_c b) = Some (r, n) /\ e = Mrg pos r n.
Proof.
  unfold push_pair. destruct (lookup_merge t (s_c a) (s_c b)) as [[r n]|].
  - rewrite push_in. split.
    + intros [->|H]; [right; now exists r, n|now left].
    + intros [H|(r' & n' & [= <- <-] & ->)]; [now right|now left].
  - split; [now left|]. intros [H|(r & n & C & _)]; [exact H|discriminate].
Qed.

Lemma push_pair_length t q pos a b : length (push_pair t q pos a b) <= S (length q).
Proof.
  unfold push_pair. destruct (lookup_merge t (s_c a) (s_c b)) as [[r n]|]; [|lia].
  rewrite push_length. lia.
Qed.

Definition hok := heap_ok m_rank.

Lemma push_ok q x : hok q -> hok (qpush q x).
Proof. apply (heap_push_ok m_rank). Qed.

Lemma push_pair_ok t q pos a b : hok q -> hok (push_pair t q pos a b).
Proof.
  intros H. unfold push_pair. destruct (lookup_merge t (s_c a) (s_c b)) as [[r n]|]; [|exact H].
  now apply push_ok.
Qed.

(** * Processing one entry *)

Definition entry_ok (t : merge_table) (w : list sym) (e : mrg) : Prop :=
  (0 <= m_pos e < zlen w)%Z /\
  exists c1 c2, lookup_merge t c1 c2 = Some (m_rank e, m_new e).

(** Every adjacent pair in the table has its entry in the queue. *)
Definition complete (t : merge_table) (w : list sym) (L : list nat) (q : list mrg) : Prop :=
  forall A i j B r n, L = A ++ i :: j :: B ->
    lookup_merge t (cof w i) (cof w j) = Some (r, n) -> In (Mrg (Z.of_nat i) r n) q.

Lemma zindex_of_nat {A} (l : list A) i x : nth_error l i = Some x -> zindex l (Z.of_nat i) = Ok x.
Proof.
  intros E. unfold zindex. replace (0 <=? Z.of_nat i)%Z with true by lia.
  now rewrite Nat2Z.id, E.
Qed.

Lemma zupd_of_nat {A} (l : list A) i x : i < length l -> zupd l (Z.of_nat i) x = Ok (upd l i x).
Proof.
  intros E. unfold zupd, zlen.
  replace ((0 <=? Z.of_nat i) && (Z.of_nat i <? Z.of_nat (length l)))%Z with true by lia.
  now rewrite Nat2Z.id.
Qed.

Lemma view_app w A B : view w (A ++ B) = view w A ++ view w B.
Proof. apply map_app. Qed.

Lemma view_frame w w' A :
  (forall i, In i A -> cof w' i = cof w i /\ lof w' i = lof w i) -> view w' A = view w A.
Proof.
  intros H. unfold view. apply map_ext_in. intros i Hi. now destruct (H i Hi) as [-> ->].
Qed.

Inductive processed (t : merge_table) (w : list sym) (L : list nat) (q : list mrg) (top : mrg)
  : res (list sym * list mrg) -> Prop :=
| Stale :
    (forall A i j B, L = A ++ i :: j :: B -> Z.of_nat i = m_pos top ->
       forall r, lookup_merge t (cof w i) (cof w j) <> Some (r, m_new top)) ->
    processed t w L q top (Ok (w, q))
| Merged A i j B r w' q' :
    L = A ++ i :: j :: B ->
    Z.of_nat i = m_pos top ->
    lookup_merge t (cof w i) (cof w j) = Some (r, m_new top) ->
    rep w' (A ++ i :: B) ->
    length w' = length w ->
    (forall k, In k A \/ In k B -> cof w' k = cof w k /\ lof w' k = lof w k) ->
    cof w' i = m_new top -> lof w' i = (lof w i + lof w j)%Z ->
    (forall e, In e q -> In e q') ->
    (forall e, In e q' -> In e q \/
       ((0 <= m_pos e < zlen w)%Z /\
        exists A1 x y B1, A ++ i :: B = A1 ++ x :: y :: B1 /\ Z.of_nat x = m_pos e /\
          lookup_merge t (cof w' x) (cof w' y) = Some (m_rank e, m_new e))) ->
    (forall A0 a r n, A = A0 ++ [a] -> lookup_merge t (cof w a) (m_new top) = Some (r, n) ->
       In (Mrg (Z.of_nat a) r n) q') ->
    (forall b B0 r n, B = b :: B0 -> lookup_merge t (m_new top) (cof w b) = Some (r, n) ->
       In (Mrg (Z.of_nat i) r n) q') ->
    length q' <= length q + 2 ->
    (hok q -> hok q') ->
    processed t w L q top (Ok (w', q')).

Lemma last_link_app p A a : last_link p (A ++ [a]) = Z.of_nat a.
Proof. unfold last_link. rewrite map_app. apply last_last. Qed.

Lemma process_top_spec t w L q top :
  rep w L -> (0 <= m_pos top < zlen w)%Z -> processed t w L q top (process_top t w q top).
Proof.
  intros R Hpos. pose proof R as [C S D]. unfold process_top.
  set (i := Z.to_nat (m_pos top)).
  assert (Hi : m_pos top = Z.of_nat i) by (unfold i; lia).
  assert (Hil : i < length w) by (unfold zlen in Hpos; lia).
  destruct (nth_error w i) as [cur|] eqn:Ecur; [|apply nth_error_None in Ecur; lia].
  rewrite Hi, (zindex_of_nat _ _ _ Ecur). cbn [bind].
  destruct (in_dec Nat.eq_dec i L) as [HiL|HiL].
  2:{ rewrite (D i cur Ecur HiL). cbn. apply Stale. intros A i' j B -> E r.
      exfalso. apply HiL. assert (i' = i) as -> by lia. apply in_elt. }
  apply in_split in HiL as (A & R0 & HL).
  pose proof C as C'. rewrite HL in C'. rewrite chain_app in C'. cbn [chain] in C'.
  destruct C' as (CA & (cur' & Ecur' & Lcur & Pcur & Ncur) & CR).
  rewrite Ecur in Ecur'. injection Ecur' as <-.
  replace (0 <? s_len cur)%Z with true by lia.
  destruct R0 as [|j B].
  { cbn [link] in Ncur. rewrite Ncur. cbn. apply Stale. intros A' i' j B E Ei r.
    assert (i' = i) as -> by lia. exfalso.
    pose proof (sorted_NoDup _ S) as ND. rewrite HL in E, ND.
    apply NoDup_remove_2 in ND. rewrite app_nil_r in ND.
    assert (L1 : length A' = length A).
    { assert (Hn : nth_error (A ++ [i]) (length A') = Some i).
      { rewrite E, nth_error_app2, Nat.sub_diag by lia. reflexivity. }
      destruct (lt_dec (length A') (length A)).
      - rewrite nth_error_app1 in Hn by assumption. apply nth_error_In in Hn. contradiction.
      - assert (length A' < length (A ++ [i])) by (apply nth_error_Some; congruence).
        rewrite app_length in *. cbn in *. lia. }
    apply (f_equal (@length nat)) in E. rewrite !app_length in E. cbn in E. lia. }
  cbn [link] in Ncur. cbn [chain] in CR.
  destruct CR as ((rgt & Ergt & Lrgt & Prgt & Nrgt) & CB).
  rewrite Ncur. replace (Z.of_nat j =? -1)%Z with false by lia.
  rewrite (zindex_of_nat _ _ _ Ergt). cbn [bind].
  assert (Hjl : j < length w) by (apply nth_error_Some; congruence).
  assert (Cc : cof w i = s_c cur) by (unfold cof; now rewrite Ecur).
  assert (Cr : cof w j = s_c rgt) by (unfold cof; now rewrite Ergt).
  assert (Lc : lof w i = s_len cur) by (unfold lof; now rewrite Ecur).
  assert (Lr : lof w j = s_len rgt) by (unfold lof; now rewrite Ergt).
  pose proof (sorted_NoDup _ S) as ND. rewrite HL in ND.
  assert (Uniq : forall A' j' B', L = A' ++ i :: j' :: B' -> j' = j).
  { intros A' j' B' E. rewrite HL in E.
    assert (L1 : length A' = length A).
    { pose proof ND as ND'. rewrite (NoDup_nth_error (A ++ i :: j :: B)) in ND'. apply ND'.
      - rewrite E, app_length. cbn. lia.
      - rewrite E at 1. rewrite !nth_error_app2, !Nat.sub_diag by lia. reflexivity. }
    apply app_inj_tail_iff || idtac.
    assert (E2 : A = A' /\ i :: j :: B = i :: j' :: B').
    { clear -E L1. revert A' L1 E. induction A as [|a A IH]; intros [|a' A'] L1 E; cbn in *; try lia.
      - split; [reflexivity|exact E].
      - injection E as -> E. destruct (IH A' ltac:(lia) E) as [-> ?]. now split. }
    destruct E2 as [_ E2]. now injection E2. }
  destruct (lookup_merge t (s_c cur) (s_c rgt)) as [[r new]|] eqn:ELk.
  2:{ apply Stale. intros A' i' j' B' E Ei r. assert (i' = i) as -> by lia.
      rewrite (Uniq _ _ _ E), Cc, Cr, ELk. discriminate. }
  destruct (new =? m_new top)%Z eqn:En.
  2:{ apply Stale. intros A' i' j' B' E Ei r'. assert (i' = i) as -> by lia.
      rewrite (Uniq _ _ _ E), Cc, Cr, ELk. intros [= _ e]. lia. }
  assert (new = m_new top) as -> by lia. clear En.
  set (current := Sym (m_new top) (s_prev cur) (s_next rgt) (s_len cur + s_len rgt)).
  cbn zeta. rewrite (zupd_of_nat _ _ _ Hil). cbn [bind].
  rewrite zupd_of_nat by (rewrite upd_length; lia). cbn [bind].
  set (dead := Sym (s_c rgt) (s_prev rgt) (s_next rgt) 0).
  set (w2 := upd (upd w i current) j dead).
  assert (ND' := ND). apply NoDup_remove in ND as [ND1 ND2].
  assert (Hij : i <> j) by (intros ->; apply ND2, in_or_app; right; now left).
  assert (HiA : ~ In i A) by (intros H; apply ND2, in_or_app; now left).
  assert (HiB : ~ In i B) by (intros H; apply ND2, in_or_app; right; now right).
  apply NoDup_remove in ND1 as [ND1 ND3].
  assert (HjA : ~ In j A) by (intros H; apply ND3, in_or_app; now left).
  assert (HjB : ~ In j B) by (intros H; apply ND3, in_or_app; now right).
  assert (HAB : forall k, In k A -> In k B -> False).
  { intros k KA KB. clear -ND1 KA KB. induction A as [|a A IH]; [destruct KA|].
    cbn in ND1. inversion ND1 as [|? ? N1 N2]; subst. destruct KA as [->|KA].
    - apply N1, in_or_app. now right.
    - now apply IH. }
  assert (W2 : forall k, k <> i -> k <> j -> nth_error w2 k = nth_error w k).
  { intros k H1 H2. unfold w2. rewrite !nth_error_upd.
    replace (k =? j) with false by lia. replace (k =? i) with false by lia. reflexivity. }
  assert (W2i : nth_error w2 i = Some current).
  { unfold w2. rewrite !nth_error_upd, upd_length. replace (i =? j) with false by lia.
    rewrite Nat.eqb_refl. replace (i <? length w) with true by lia. reflexivity. }
  assert (W2j : nth_error w2 j = Some dead).
  { unfold w2. rewrite !nth_error_upd, upd_length.
    rewrite Nat.eqb_refl. replace (j <? length w) with true by lia. reflexivity. }
  assert (W2len : length w2 = length w) by (unfold w2; now rewrite !upd_length).
  (* the third update *)
  assert (W3 : exists w3,
    (if ((-1 <? s_next rgt) && (s_next rgt <? zlen w))%Z
     then do nn <- zindex w2 (s_next rgt);
          zupd w2 (s_next rgt) (Sym (s_c nn) (Z.of_nat i) (s_next nn) (s_len nn))
     else Ok w2) = Ok w3 /\
    length w3 = length w /\
    (forall k, k <> i -> k <> j -> ~ In k B -> nth_error w3 k = nth_error w k) /\
    nth_error w3 i = Some current /\ nth_error w3 j = Some dead /\
    (forall k, In k B -> cof w3 k = cof w k /\ lof w3 k = lof w k) /\
    chain w3 (Z.of_nat i) B (-1)).
  { destruct B as [|b B0].
    - cbn [link] in Nrgt. rewrite Nrgt. cbn. exists w2. split; [reflexivity|].
      split; [exact W2len|]. split; [auto|]. split; [exact W2i|]. split; [exact W2j|].
      split; [intros k []|]. exact I.
    - cbn [link] in Nrgt. cbn [chain] in CB. destruct CB as ((nn & Enn & Lnn & Pnn & Nnn) & CB0).
      assert (Hbl : b < length w) by (apply nth_error_Some; congruence).
      rewrite Nrgt. unfold zlen.
      replace ((-1 <? Z.of_nat b) && (Z.of_nat b <? Z.of_nat (length w)))%Z with true by lia.
      assert (Hb1 : b <> i) by (intros ->; apply HiB; now left).
      assert (Hb2 : b <> j) by (intros ->; apply HjB; now left).
      assert (Enn2 : nth_error w2 b = Some nn) by (rewrite W2; assumption).
      rewrite (zindex_of_nat _ _ _ Enn2). cbn [bind].
      rewrite zupd_of_nat by lia.
      eexists. split; [reflexivity|]. rewrite upd_length.
      assert (HbB0 : ~ In b B0).
      { apply NoDup_remove_2 in ND1. intros H. apply ND1, in_or_app. now right. }
      assert (W3o : forall k, k <> b -> nth_error (upd w2 b (Sym (s_c nn) (Z.of_nat i) (s_next nn) (s_len nn))) k = nth_error w2 k).
      { intros k Hk. rewrite nth_error_upd. now replace (k =? b) with false by lia. }
      assert (W3b : nth_error (upd w2 b (Sym (s_c nn) (Z.of_nat i) (s_next nn) (s_len nn))) b
                    = Some (Sym (s_c nn) (Z.of_nat i) (s_next nn) (s_len nn))).
      { rewrite nth_error_upd, Nat.eqb_refl, W2len. now replace (b <? length w) with true by lia. }
      split; [exact W2len|]. split.
      { intros k H1 H2 H3. rewrite W3o by (intros ->; apply H3; now left). now apply W2. }
      split; [now rewrite W3o by lia|]. split; [now rewrite W3o by lia|]. split.
      { intros k Hk. unfold cof, lof. destruct (Nat.eq_dec k b) as [->|Hkb].
        - rewrite W3b, Enn. now split.
        - rewrite W3o by assumption. rewrite W2; [now split| |].
          + intros ->. now apply HiB.
          + intros ->. now apply HjB. }
      cbn [chain]. split.
      + eexists. split; [exact W3b|]. cbn. auto.
      + apply (chain_frame w); [|exact CB0]. intros k Hk.
        rewrite W3o by (intros ->; contradiction). apply W2.
        * intros ->. apply HiB. now right.
        * intros ->. apply HjB. now right. }
  destruct W3 as (w3 & -> & W3len & W3o & W3i & W3j & W3B & W3chain). cbn [bind].
  assert (RW : rep w3 (A ++ i :: B)).
  { split.
    - apply chain_app. split; [|cbn [chain]; split].
      + cbn [link]. apply (chain_frame w); [|exact CA].
        intros k Hk. apply W3o; intros E; subst; eauto.
      + exists current. split; [exact W3i|]. cbn. split; [lia|]. split; [exact Pcur|exact Nrgt].
      + exact W3chain.
    - rewrite HL in S. now apply sorted_remove in S.
    - intros k s Ek Hk. destruct (Nat.eq_dec k j) as [->|Hkj].
      + rewrite W3j in Ek. injection Ek as <-. reflexivity.
      + apply (D k s).
        * rewrite <- Ek. symmetry. apply W3o; [|exact Hkj|].
          -- intros ->. apply Hk, in_elt.
          -- intros H. apply Hk, in_or_app. right. now right.
        * rewrite HL. intros H. apply Hk. apply in_app_or in H as [H|[->|[->|H]]].
          -- apply in_or_app. now left.
          -- apply in_elt.
          -- congruence.
          -- apply in_or_app. right. now right. }
  assert (CL : forall k, In k A \/ In k B -> cof w3 k = cof w k /\ lof w3 k = lof w k).
  { intros k [Hk|Hk]; [|now apply W3B]. unfold cof, lof.
    rewrite W3o; [now split| | |]; intros E; subst; eauto. }
  cbn [s_prev s_next current].
  (* the pushes *)
  assert (Q1 : exists q1,
    (if (0 <=? s_prev cur)%Z
     then do p <- zindex w3 (s_prev cur); Ok (push_pair t q (s_prev cur) p current)
     else Ok q) = Ok q1 /\
    (forall e, In e q -> In e q1) /\
    (forall e, In e q1 -> In e q \/ (0 <= m_pos e < zlen w)%Z /\
        exists A1 x y B1, A ++ i :: B = A1 ++ x :: y :: B1 /\ Z.of_nat x = m_pos e /\
          lookup_merge t (cof w3 x) (cof w3 y) = Some (m_rank e, m_new e)) /\
    (forall A0 a r n, A = A0 ++ [a] -> lookup_merge t (cof w a) (m_new top) = Some (r, n) ->
       In (Mrg (Z.of_nat a) r n) q1) /\
    length q1 <= length q + 1 /\ (hok q -> hok q1)).
  { destruct A as [|a0 A1] eqn:EA.
    - unfold last_link in Pcur. cbn in Pcur. rewrite Pcur. cbn. exists q.
      split; [reflexivity|]. split; [auto|]. split; [auto|]. split.
      { intros A0 a r0 n E. destruct A0; discriminate. }
      split; [lia|auto].
    - rewrite <- EA in *. assert (HA : exists A0 a, A = A0 ++ [a]).
      { destruct (exists_last (l := A)) as (A0 & a & E); [rewrite EA; discriminate|]. eauto. }
      clear EA a0 A1. destruct HA as (A0 & a & EA). rewrite EA, last_link_app in Pcur.
      rewrite Pcur. replace (0 <=? Z.of_nat a)%Z with true by lia.
      assert (Ia : In a A) by (rewrite EA; apply in_or_app; right; now left).
      destruct (chain_in _ _ _ _ _ CA Ia) as (p & Ep & _).
      assert (Ep3 : nth_error w3 a = Some p).
      { rewrite W3o; [exact Ep| | |]; intros E; subst; eauto. }
      rewrite (zindex_of_nat _ _ _ Ep3). cbn [bind].
      exists (push_pair t q (Z.of_nat a) p current). split; [reflexivity|].
      assert (a < length w) by (apply nth_error_Some; congruence).
      split; [intros e He; apply push_pair_spec; now left|]. split.
      { intros e He. apply push_pair_spec in He as [He|(r0 & n & E & ->)]; [now left|].
        rewrite EA. right. cbn. unfold zlen. split; [lia|]. exists A0, a, i, B.
        rewrite <- app_assoc. split; [reflexivity|]. split; [reflexivity|].
        unfold cof. now rewrite Ep3, W3i. }
      split.
      { intros A0' a' r0 n E Elk. rewrite EA in E. apply app_inj_tail in E as [_ <-].
        apply push_pair_spec. right. exists r0, n. split; [|reflexivity].
        unfold cof in Elk. rewrite Ep in Elk. exact Elk. }
      split; [pose proof (push_pair_length t q (Z.of_nat a) p current); lia|].
      apply push_pair_ok. }
  destruct Q1 as (q1 & -> & Q1a & Q1b & Q1c & Q1d & Q1e). cbn [bind].
  assert (Q2 : exists q2,
    (if ((s_next rgt <? zlen w) && (-1 <? s_next rgt))%Z
     then do n <- zindex w3 (s_next rgt); Ok (push_pair t q1 (Z.of_nat i) current n)
     else Ok q1) = Ok q2 /\
    (forall e, In e q1 -> In e q2) /\
    (forall e, In e q2 -> In e q1 \/ (0 <= m_pos e < zlen w)%Z /\
        exists A1 x y B1, A ++ i :: B = A1 ++ x :: y :: B1 /\ Z.of_nat x = m_pos e /\
          lookup_merge t (cof w3 x) (cof w3 y) = Some (m_rank e, m_new e)) /\
    (forall b B0 r n, B = b :: B0 -> lookup_merge t (m_new top) (cof w b) = Some (r, n) ->
       In (Mrg (Z.of_nat i) r n) q2) /\
    length q2 <= length q1 + 1 /\ (hok q1 -> hok q2)).
  { destruct B as [|b B0].
    - cbn [link] in Nrgt. rewrite Nrgt. rewrite andb_false_r. exists q1.
      split; [reflexivity|]. split; [auto|]. split; [auto|]. split.
      { intros b B0 r0 n E. discriminate. }
      split; [lia|auto].
    - cbn [link] in Nrgt.
      destruct (chain_in _ _ _ _ _ W3chain (or_introl eq_refl)) as (p & Ep & _).
      assert (b < length w) by (rewrite <- W3len; apply nth_error_Some; congruence).
      rewrite Nrgt. unfold zlen.
      replace ((Z.of_nat b <? Z.of_nat (length w)) && (-1 <? Z.of_nat b))%Z with true by lia.
      rewrite (zindex_of_nat _ _ _ Ep). cbn [bind].
      exists (push_pair t q1 (Z.of_nat i) current p). split; [reflexivity|].
      split; [intros e He; apply push_pair_spec; now left|]. split.
      { intros e He. apply push_pair_spec in He as [He|(r0 & n & E & ->)]; [now left|].
        right. cbn. split; [lia|]. exists A, i, b, B0. split; [reflexivity|].
        split; [reflexivity|]. unfold cof. now rewrite Ep, W3i. }
      split.
      { intros b' B0' r0 n E Elk. injection E as <- <-.
        apply push_pair_spec. right. exists r0, n. split; [|reflexivity].
        destruct (CL b (or_intror (or_introl eq_refl))) as [Cb _].
        rewrite <- Cb in Elk. unfold cof in Elk. rewrite Ep in Elk. exact Elk. }
      split; [pose proof (push_pair_length t q1 (Z.of_nat i) current p); lia|].
      apply push_pair_ok. }
  destruct Q2 as (q2 & -> & Q2a & Q2b & Q2c & Q2d & Q2e). cbn [bind].
  apply (Merged t w L q top A i j B r); auto.
  - now rewrite Cc, Cr.
  - unfold cof. now rewrite W3i.
  - unfold lof at 1. rewrite W3i. cbn. lia.
  - intros e He. apply Q2b in He as [He|He]; [|now right]. now apply Q1b.
  - intros A0 a r0 n E Elk. apply Q2a. eapply Q1c; eassumption.
  - lia.
Qed.

(** * The loop *)

Definition tbl (t : merge_table) : table := lookup_merge t.

Lemma view_merged w w' A i j B new :
  (forall k, In k A \/ In k B -> cof w' k = cof w k /\ lof w' k = lof w k) ->
  cof w' i = new -> lof w' i = (lof w i + lof w j)%Z ->
  view w (A ++ i :: j :: B) = view w A ++ (cof w i, lof w i) :: (cof w j, lof w j) :: view w B /\
  view w' (A ++ i :: B) = view w A ++ (new, (lof w i + lof w j)%Z) :: view w B.
Proof.
  intros H Hc Hl. split; [apply view_app|].
  rewrite view_app. cbn [view map]. fold (view w' B). rewrite Hc, Hl.
  rewrite (view_frame w w' A), (view_frame w w' B); [reflexivity| |]; intros k Hk; apply H; auto.
Qed.

Lemma entry_ok_length t w w' e : length w' = length w -> entry_ok t w e -> entry_ok t w' e.
Proof. unfold entry_ok, zlen. intros ->. tauto. Qed.

Lemma fold_push_in skip : forall q e, In e (fold_left qpush skip q) <-> In e skip \/ In e q.
Proof.
  induction skip as [|x skip IH]; intros q e; cbn [fold_left In]; [tauto|].
  rewrite IH, push_in. intuition congruence.
Qed.

Lemma fold_push_length skip : forall q, length (fold_left qpush skip q) = length skip + length q.
Proof.
  induction skip as [|x skip IH]; intros q; cbn [fold_left length]; [reflexivity|].
  rewrite IH, push_length. lia.
Qed.

(** Whatever is dropped: no panic, and only prescribed merges. *)
Lemma merge_loop_any t drop fuel : forall k w q skip L,
  rep w L -> Forall (entry_ok t w) q -> Forall (entry_ok t w) skip ->
  merge_loop t drop fuel k w q skip = NoFuel \/
  exists w' L', merge_loop t drop fuel k w q skip = Ok w' /\ rep w' L' /\
    length w' = length w /\ merge_steps (tbl t) (view w L) (view w' L').
Proof.
  induction fuel as [|fuel IH]; intros k w q skip L R Hq Hs; cbn [merge_loop]; [now left|].
  destruct (qpop q) as [[top q1]|] eqn:Ep.
  2:{ right. exists w, L. repeat split; try apply R. constructor. }
  destruct (pop_spec _ _ _ Ep) as [Lq Iq]. rewrite Forall_forall in Hq, Hs.
  assert (Ht : entry_ok t w top) by (apply Hq, Iq; now left).
  destruct (drop k).
  - apply IH; [exact R| |].
    + apply Forall_forall. intros e He. apply Hq, Iq. now right.
    + apply Forall_app. split; [now apply Forall_forall|]. now constructor.
  - set (q2 := fold_left qpush skip q1).
    assert (Hq2 : forall e, In e q2 -> entry_ok t w e).
    { intros e He. apply fold_push_in in He as [He|He]; [now apply Hs|]. apply Hq, Iq. now right. }
    pose proof (process_top_spec t w L q2 top R (proj1 Ht)) as P.
    remember (process_top t w q2 top) as pr eqn:Epr. clear Epr.
    destruct P as [St|A i j B r w' q' HL Hi Hlk R' Hlen Hoth Hc Hl Hin Hnew _ _ _ _];
      cbn [bind fst snd].
    + apply IH; [exact R|now apply Forall_forall|now apply Forall_forall].
    + assert (F1 : Forall (entry_ok t w') q').
      { apply Forall_forall. intros e He. apply (entry_ok_length t w); [exact Hlen|].
        apply Hnew in He as [He|(H1 & A1 & x & y & B1 & _ & _ & H2)]; [now apply Hq2|].
        split; [exact H1|]. eauto. }
      assert (F2 : Forall (entry_ok t w') skip).
      { apply Forall_forall. intros e He. apply (entry_ok_length t w); [exact Hlen|]. now apply Hs. }
      destruct (IH (S k) w' q' skip (A ++ i :: B) R' F1 F2) as [E|(w'' & L'' & E & R'' & Hlen'' & St)];
        [now left|].
      right. exists w'', L''. split; [exact E|]. split; [exact R''|]. split; [congruence|].
      destruct (view_merged w w' A i j B (m_new top) Hoth Hc Hl) as [V1 V2].
      rewrite HL, V1. eapply MergeMore; [|exact St]. rewrite V2.
      constructor. exact Hlk.
Qed.

(** Lengths that make every merge result longer than its parts. *)
Definition additive (t : table) (wt : Z -> Z) : Prop :=
  (forall c, 0 < wt c)%Z /\
  (forall c1 c2 r n, t c1 c2 = Some (r, n) -> wt n = wt c1 + wt c2)%Z.

(** The entry's own pair is still there, or the pair now at its position is longer. *)
Definition fresh (t : merge_table) (wt : Z -> Z) (w : list sym) (L : list nat) (e : mrg) : Prop :=
  exists c1 c2, lookup_merge t c1 c2 = Some (m_rank e, m_new e) /\
    forall A i j B, L = A ++ i :: j :: B -> Z.of_nat i = m_pos e ->
      (cof w i = c1 /\ cof w j = c2) \/ (wt c1 + wt c2 < wt (cof w i) + wt (cof w j))%Z.

(** Adjacent positions. *)
Definition adj (L : list nat) (x y : nat) : Prop := exists A B, L = A ++ x :: y :: B.

Lemma adj_cons i L x y : adj (i :: L) x y <-> (x = i /\ exists L0, L = y :: L0) \/ adj L x y.
Proof.
  split.
  - intros ([|a A] & B & E); cbn in E; injection E as -> E.
    + left. split; [reflexivity|now exists B].
    + right. now exists A, B.
  - intros [(-> & L0 & ->)|(A & B & ->)]; [now exists [], L0|now exists (i :: A), B].
Qed.

Lemma adj_app A i B x y :
  adj (A ++ i :: B) x y <->
  adj A x y \/ (y = i /\ exists A0, A = A0 ++ [x]) \/ (x = i /\ exists B0, B = y :: B0) \/ adj B x y.
Proof.
  revert i; induction A as [|a A IH]; intros i; cbn [app].
  - rewrite adj_cons. split.
    + intros [(-> & B0 & ->)|H]; [right; right; left; eauto|now do 3 right].
    + intros [(A & B0 & E)|[(-> & A0 & E)|[(-> & B0 & ->)|H]]].
      * destruct A; discriminate.
      * destruct A0; discriminate.
      * left; eauto.
      * now right.
  - rewrite !adj_cons, IH. split.
    + intros [(-> & L0 & E)|[H|[(-> & A0 & ->)|H]]].
      * destruct A as [|a' A']; injection E as -> E.
        -- right; left. split; [reflexivity|]. now exists [].
        -- left. left. split; [reflexivity|]. now exists A'.
      * left; now right.
      * right; left. split; [reflexivity|]. now exists (a :: A0).
      * right; now right.
    + intros [[(-> & L0 & ->)|H]|[(-> & A0 & E)|H]].
      * left. split; [reflexivity|]. now exists (L0 ++ i :: B).
      * right; now left.
      * destruct A0 as [|a' A0]; injection E as -> E.
        -- left. subst. split; [reflexivity|]. now exists B.
        -- right. right; left. split; [reflexivity|]. now exists A0.
      * right; right; now right.
Qed.

Lemma adj_app2 A i j B x y :
  adj (A ++ i :: j :: B) x y <->
  adj A x y \/ (y = i /\ exists A0, A = A0 ++ [x]) \/ (x = i /\ y = j) \/
  (x = j /\ exists B0, B = y :: B0) \/ adj B x y.
Proof.
  rewrite adj_app, adj_cons. split.
  - intros [H|[H|[(-> & B0 & [= -> ->])|H]]]; tauto.
  - intros [H|[H|[(-> & ->)|[H|H]]]]; try tauto. right; right; left. eauto.
Qed.

Lemma adj_in L x y : adj L x y -> In x L /\ In y L.
Proof.
  intros (A & B & ->). split; apply in_or_app; right; [now left|right; now left].
Qed.

Record inv (t : merge_table) (w : list sym) (L : list nat) (q : list mrg) : Prop := {
  inv_rep : rep w L;
  inv_entries : Forall (entry_ok t w) q;
  inv_complete : complete t w L q;
  inv_hok : hok q;
}.

Lemma complete_adj t w L q : complete t w L q <->
  forall i j r n, adj L i j -> lookup_merge t (cof w i) (cof w j) = Some (r, n) ->
    In (Mrg (Z.of_nat i) r n) q.
Proof.
  unfold complete, adj. split.
  - intros H i j r n (A & B & E). eauto.
  - intros H A i j B r n E. apply (H i j r n). eauto.
Qed.

Lemma fresh_adj t wt w L e : fresh t wt w L e <->
  exists c1 c2, lookup_merge t c1 c2 = Some (m_rank e, m_new e) /\
    forall i j, adj L i j -> Z.of_nat i = m_pos e ->
      (cof w i = c1 /\ cof w j = c2) \/ (wt c1 + wt c2 < wt (cof w i) + wt (cof w j))%Z.
Proof.
  unfold fresh, adj. split; intros (c1 & c2 & E & H); exists c1, c2; (split; [exact E|]).
  - intros i j (A & B & EL). eauto.
  - intros A i j B EL. apply H. eauto.
Qed.

Lemma adj_unique (L : list nat) A1 A2 x y1 y2 B1 B2 :
  NoDup L -> L = A1 ++ x :: y1 :: B1 -> L = A2 ++ x :: y2 :: B2 -> y1 = y2.
Proof.
  intros ND E1 E2.
  assert (L1 : length A1 = length A2).
  { rewrite (NoDup_nth_error L) in ND. apply ND.
    - rewrite E1, app_length. cbn. lia.
    - rewrite E1 at 1. rewrite E2. rewrite !nth_error_app2, !Nat.sub_diag by lia. reflexivity. }
  rewrite E1 in E2. clear -E2 L1. revert A2 L1 E2.
  induction A1 as [|a A1 IH]; intros [|a' A2] L1 E; cbn in *; try lia.
  - now injection E.
  - injection E as _ E. now apply (IH A2 ltac:(lia)).
Qed.

Lemma not_adj_last A x (i : nat) B j : NoDup (A ++ i :: j :: B) -> In x B -> In x A -> False.
Proof.
  intros N HB HA. induction A as [|a A IH]; [destruct HA|]. cbn in N. inversion N; subst.
  destruct HA as [->|HA]; [|now apply IH]. apply H1, in_or_app. right. right. now right.
Qed.

Lemma merge_loop_main t fuel : forall k w q L,
  inv t w L q -> length q + 2 * length L < fuel ->
  exists w' L', merge_loop t no_drop fuel k w q [] = Ok w' /\ rep w' L' /\
    length w' = length w /\
    merge_steps (tbl t) (view w L) (view w' L') /\
    (forall x y, adj L' x y -> lookup_merge t (cof w' x) (cof w' y) = None) /\
    (forall wt, additive (tbl t) wt -> Forall (fresh t wt w L) q ->
       ranked_steps (tbl t) (view w L) (view w' L')).
Proof.
  induction fuel as [|fuel IH]; intros k w q L I Hf; [lia|]. cbn [merge_loop].
  destruct I as [R Hq Cq Hk]. rewrite complete_adj in Cq.
  destruct (qpop q) as [[top q1]|] eqn:Ep.
  2:{ apply pop_none in Ep as ->. exists w, L. repeat split; try apply R; try constructor.
      intros x y A. destruct (lookup_merge t (cof w x) (cof w y)) as [[r n]|] eqn:E; [|reflexivity].
      destruct (Cq x y r n A E). }
  destruct (pop_spec _ _ _ Ep) as [Lq Iq]. rewrite Forall_forall in Hq.
  assert (Ht : entry_ok t w top) by (apply Hq, Iq; now left).
  destruct (heap_pop_ok m_rank q top q1 Hk Ep) as [Hk1 Hmin].
  cbn [no_drop fold_left].
  pose proof (process_top_spec t w L q1 top R (proj1 Ht)) as P.
  remember (process_top t w q1 top) as pr eqn:Epr. clear Epr.
  destruct P as [St|A i j B r w' q' HL Hi Hlk R' Hlen Hoth Hc Hl Hin Hnew Hprev Hnext Hql Hqok];
    cbn [bind fst snd].
  - assert (I1 : inv t w L q1).
    { split; [exact R| | |exact Hk1].
      - apply Forall_forall. intros e He. apply Hq, Iq. now right.
      - apply complete_adj. intros i j r n A E. pose proof (Cq i j r n A E) as In1.
        apply Iq in In1 as [e|H]; [|exact H]. exfalso. destruct A as (A & B & EL).
        apply (St A i j B EL (f_equal m_pos e) r). rewrite E. f_equal. f_equal.
        exact (f_equal m_new e). }
    destruct (IH (S k) w q1 L I1 ltac:(lia)) as (w' & L' & E & R' & Hlen & Ms & Ex & Rk).
    exists w', L'. split; [exact E|]. split; [exact R'|]. split; [exact Hlen|].
    split; [exact Ms|]. split; [exact Ex|].
    intros wt Hwt Fr. apply (Rk wt Hwt). rewrite Forall_forall in *.
    intros e He. apply Fr, Iq. now right.
  - pose proof (sorted_NoDup _ (rep_sorted _ _ R)) as ND. rewrite HL in ND.
    assert (HiA : ~ In i A /\ ~ In i B).
    { apply NoDup_remove_2 in ND. split; intros H; apply ND, in_or_app; [now left|right; now right]. }
    assert (HjB : ~ In j B /\ i <> j /\ ~ In j A).
    { pose proof ND as ND0. apply NoDup_remove in ND as [ND Hn]. apply NoDup_remove_2 in ND.
      split; [|split].
      - intros H; apply ND, in_or_app; now right.
      - intros ->. apply Hn, in_or_app. right; now left.
      - intros H; apply ND, in_or_app; now left. }
    assert (I1 : inv t w' (A ++ i :: B) q').
    { split; [exact R'| | |now apply Hqok].
      - apply Forall_forall. intros e He. apply (entry_ok_length t w); [exact Hlen|].
        apply Hnew in He as [He|(H1 & A1 & x & y & B1 & _ & _ & H2)]; [|split; [exact H1|]; eauto].
        apply Hq, Iq. now right.
      - apply complete_adj. intros x y r0 n Ad E. apply adj_app in Ad.
        assert (Old : adj L x y -> x <> i ->
                  cof w' x = cof w x -> cof w' y = cof w y -> In (Mrg (Z.of_nat x) r0 n) q').
        { intros AL Hxi Cx Cy. apply Hin. rewrite Cx, Cy in E. specialize (Cq x y r0 n AL E).
          apply Iq in Cq as [e|H]; [|exact H]. exfalso. apply Hxi.
          assert (Z.of_nat x = m_pos top) by (rewrite <- e; reflexivity). lia. }
        destruct Ad as [AA|[(-> & A0 & EA)|[(-> & B0 & EB)|AB]]].
        + pose proof (adj_in _ _ _ AA) as [Ix Iy]. apply Old.
          * rewrite HL. apply adj_app. now left.
          * intros ->. tauto.
          * apply Hoth. now left.
          * apply Hoth. now left.
        + rewrite Hc in E. assert (cof w' x = cof w x) as Cx.
          { apply Hoth. left. rewrite EA. apply in_or_app. right; now left. }
          rewrite Cx in E. eapply Hprev; eassumption.
        + rewrite Hc in E. assert (cof w' y = cof w y) as Cy.
          { apply Hoth. right. rewrite EB. now left. }
          rewrite Cy in E. eapply Hnext; eassumption.
        + pose proof (adj_in _ _ _ AB) as [Ix Iy]. apply Old.
          * rewrite HL. apply adj_app2. now do 4 right.
          * intros ->. tauto.
          * apply Hoth. now right.
          * apply Hoth. now right. }
    assert (Hm : length q' + 2 * length (A ++ i :: B) < fuel).
    { rewrite HL in Hf. rewrite app_length in *. cbn [length] in *. lia. }
    destruct (IH (S k) w' q' (A ++ i :: B) I1 Hm) as (w'' & L'' & E & R'' & Hlen'' & Ms & Ex & Rk).
    destruct (view_merged w w' A i j B (m_new top) Hoth Hc Hl) as [V1 V2].
    exists w'', L''. split; [exact E|]. split; [exact R''|]. split; [congruence|].
    split; [|split; [exact Ex|]].
    { rewrite HL, V1. rewrite V2 in Ms. eapply MergeMore; [|exact Ms]. constructor. exact Hlk. }
    intros wt Hwt Fr. rewrite Forall_forall in Fr.
    destruct Hwt as [Wpos Wadd].
    assert (Hr : r = m_rank top).
    { destruct (Fr top ltac:(apply Iq; now left)) as (c1 & c2 & El & F).
      destruct (F A i j B HL Hi) as [[<- <-]|Hlt]; [congruence|].
      pose proof (Wadd _ _ _ _ El). pose proof (Wadd _ _ _ _ Hlk). lia. }
    rewrite HL, V1. rewrite V2 in Rk. eapply (RankedMore _ r); [| |apply (Rk wt); [now split|]].
    + constructor. exact Hlk.
    + rewrite <- V1, <- HL. intros A1 B1 c1 l1 c2 l2 r' n' Ev Elk.
      unfold view in Ev. apply map_eq_app in Ev as (LA & LB & EL & _ & EvB).
      destruct LB as [|x [|y LB]]; cbn [map] in EvB; try discriminate.
      injection EvB as Ex1 Ex2 Ey1 Ey2 EvB.
      assert (In1 : In (Mrg (Z.of_nat x) r' n') q).
      { apply (Cq x y); [now exists LA, LB|]. rewrite Ex1, Ey1. exact Elk. }
      specialize (Hmin _ In1). cbn in Hmin. lia.
    + (* freshness is preserved *)
      apply Forall_forall. intros e He. apply fresh_adj.
      assert (Wi : wt (cof w' i) = (wt (cof w i) + wt (cof w j))%Z).
      { rewrite Hc. apply (Wadd _ _ _ _ Hlk). }
      assert (OldE : In e q -> exists c1 c2 : Z,
        lookup_merge t c1 c2 = Some (m_rank e, m_new e) /\
        (forall x y, adj (A ++ i :: B) x y -> Z.of_nat x = m_pos e ->
          cof w' x = c1 /\ cof w' y = c2 \/ (wt c1 + wt c2 < wt (cof w' x) + wt (cof w' y))%Z)).
      { intros Hin0. specialize (Fr e Hin0). apply fresh_adj in Fr as (c1 & c2 & El & F).
        exists c1, c2. split; [exact El|]. intros x y Ad Hx. rewrite HL in F.
        pose proof (Wpos (cof w j)) as Pj.
        apply adj_app in Ad. destruct Ad as [AA|[(-> & A0 & EA)|[(-> & B0 & EB)|AB]]].
        - pose proof (adj_in _ _ _ AA) as [Ix Iy].
          destruct (Hoth x (or_introl Ix)) as [-> _]. destruct (Hoth y (or_introl Iy)) as [-> _].
          apply F; [|exact Hx]. apply adj_app2. now left.
        - assert (cof w' x = cof w x) as ->.
          { apply Hoth. left. rewrite EA. apply in_or_app. right; now left. }
          destruct (F x i) as [[<- <-]|Hlt]; [|exact Hx| |].
          + apply adj_app2. right; left. split; [reflexivity|]. eauto.
          + right. lia.
          + right. lia.
        - assert (cof w' y = cof w y) as ->.
          { apply Hoth. right. rewrite EB. now left. }
          pose proof (Wpos (cof w y)) as Py.
          destruct (F i j) as [[<- <-]|Hlt]; [|exact Hx| |].
          + apply adj_app2. right; right; left. now split.
          + right. lia.
          + right. lia.
        - pose proof (adj_in _ _ _ AB) as [Ix Iy].
          destruct (Hoth x (or_intror Ix)) as [-> _]. destruct (Hoth y (or_intror Iy)) as [-> _].
          apply F; [|exact Hx]. apply adj_app2. now do 4 right. }
      pose proof (Hnew e He) as [He1|(_ & A1 & x & y & B1 & EL & Hx & Elk)].
      { apply OldE, Iq. now right. }
      exists (cof w' x), (cof w' y). split; [exact Elk|]. intros x' y' (A2 & B2 & EL2) Hx'.
      assert (x' = x) as -> by lia. left. split; [reflexivity|]. f_equal.
      pose proof (sorted_NoDup _ (rep_sorted _ _ R')) as ND'.
      eapply adj_unique; [exact ND'|exact EL2|exact EL].
Qed.

(** * Words built by [Add] *)

Definition segs (w : list sym) : list BpeSpec.seg := map (fun s => (s_c s, s_len s)) w.

Lemma list_ext {A} (a b : list A) : (forall i, nth_error a i = nth_error b i) -> a = b.
Proof.
  revert b; induction a as [|x a IH]; intros [|y b] H; try reflexivity.
  - specialize (H 0). discriminate.
  - specialize (H 0). discriminate.
  - pose proof (H 0) as H0. cbn in H0. injection H0 as ->. f_equal. apply IH.
    intros i. exact (H (S i)).
Qed.

Lemma nth_error_combine_seq {A} (l : list A) : forall k n i, length l <= n ->
  nth_error (combine (seq k n) l) i = option_map (fun x => (k + i, x)) (nth_error l i).
Proof.
  induction l as [|x l IH]; intros k n i H.
  - destruct (seq k n); destruct i; reflexivity.
  - destruct n as [|n]; [cbn in H; lia|]. cbn [seq combine]. destruct i as [|i]; cbn.
    + now rewrite Nat.add_0_r.
    + rewrite IH by (cbn in H; lia). now rewrite Nat.add_succ_r.
Qed.

Definition linked (l : list BpeSpec.seg) : list sym :=
  map (fun p : nat * BpeSpec.seg =>
         let '(i, (c, n)) := p in
         Sym c (Z.of_nat i - 1) (if S i =? length l then (-1)%Z else Z.of_nat (S i)) n)
      (combine (seq 0 (length l)) l).

Lemma nth_error_linked l i :
  nth_error (linked l) i =
  option_map (fun p : BpeSpec.seg =>
    Sym (fst p) (Z.of_nat i - 1) (if S i =? length l then (-1)%Z else Z.of_nat (S i)) (snd p))
    (nth_error l i).
Proof.
  unfold linked. rewrite nth_error_map, nth_error_combine_seq by lia. cbn.
  destruct (nth_error l i) as [[c n]|]; reflexivity.
Qed.

Lemma linked_length l : length (linked l) = length l.
Proof. unfold linked. rewrite map_length, combine_length, seq_length. lia. Qed.

Lemma word_add_linked l c n : word_add (linked l) c n = linked (l ++ [(c, n)]).
Proof.
  unfold word_add. pose proof (linked_length l) as HL.
  destruct (linked l) as [|s0 w0] eqn:E.
  - cbn in HL. destruct l; [reflexivity|discriminate].
  - rewrite <- E in *. clear E. apply list_ext. intros i.
    rewrite nth_error_linked, !app_length. cbn [length].
    destruct (lt_dec i (length l)) as [Hi|Hi].
    + rewrite !nth_error_app1.
      2:{ exact Hi. }
      2:{ rewrite map_length, combine_length, seq_length. lia. }
      rewrite nth_error_map, nth_error_combine_seq by lia.
      rewrite nth_error_linked, HL.
      destruct (nth_error l i) as [[c' n']|] eqn:E; [|reflexivity]. cbn [option_map fst snd s_c s_len].
      unfold zlen. rewrite HL. cbn [Nat.add].
      destruct (i =? 0) eqn:E0.
      { assert (i = 0) as -> by lia. replace (1 =? length l + 1) with false by lia. reflexivity. }
      destruct (i =? length l - 1) eqn:E1.
      { replace (S i =? length l + 1) with false by lia. f_equal. f_equal; lia. }
      replace (S i =? length l) with false by lia.
      replace (S i =? length l + 1) with false by lia. reflexivity.
    + rewrite nth_error_app2 by (rewrite map_length, combine_length, seq_length; lia).
      rewrite map_length, combine_length, seq_length, HL, Nat.min_id.
      rewrite nth_error_app2 by lia. unfold zlen. rewrite HL.
      destruct (i - length l) as [|m] eqn:Em; cbn [nth_error option_map fst snd].
      * assert (i = length l) as -> by lia. replace (S (length l) =? length l + 1) with true by lia.
        reflexivity.
      * destruct m; reflexivity.
Qed.

Lemma fold_word_add (l : list BpeSpec.seg) : forall l0,
  fold_left (fun w p => word_add w (fst p) (snd p)) l (linked l0) = linked (l0 ++ l).
Proof.
  induction l as [|[c n] l IH]; intros l0; cbn [fold_left].
  - now rewrite app_nil_r.
  - rewrite word_add_linked, IH, <- app_assoc. reflexivity.
Qed.

Lemma view_linked l : view (linked l) (seq 0 (length l)) = l.
Proof.
  apply list_ext. intros i. unfold view. rewrite nth_error_map.
  destruct (lt_dec i (length l)) as [Hi|Hi].
  - assert (E : nth_error (seq 0 (length l)) i = Some i).
    { rewrite (nth_error_nth' _ 0) by (now rewrite seq_length). now rewrite seq_nth. }
    rewrite E. cbn. unfold cof, lof. rewrite nth_error_linked.
    destruct (nth_error l i) as [[c n]|] eqn:En; [reflexivity|].
    apply nth_error_None in En. lia.
  - assert (E : nth_error (seq 0 (length l)) i = None) by (apply nth_error_None; rewrite seq_length; lia).
    rewrite E. symmetry. apply nth_error_None. lia.
Qed.

Definition positive (l : list BpeSpec.seg) : Prop := Forall (fun p => (0 < snd p)%Z) l.

Lemma rep_linked l : positive l -> rep (linked l) (seq 0 (length l)).
Proof.
  intros P. split.
  - assert (G : forall m k, k + m = length l -> chain (linked l) (Z.of_nat k - 1) (seq k m) (-1)).
    { induction m as [|m IH]; intros k Hk; cbn [seq chain]; [exact I|]. split.
      - destruct (nth_error l k) as [[c n]|] eqn:E; [|apply nth_error_None in E; lia].
        rewrite nth_error_linked, E. eexists. split; [reflexivity|]. cbn.
        split; [|split].
        + unfold positive in P. rewrite Forall_forall in P. apply nth_error_In in E.
          apply (P _ E).
        + reflexivity.
        + destruct m as [|m]; cbn [seq link].
          * now replace (length l) with (S k) by lia; rewrite Nat.eqb_refl.
          * destruct (length l) as [|n0] eqn:En; [lia|].
            now replace (k =? n0) with false by lia.
      - replace (Z.of_nat k) with (Z.of_nat (S k) - 1)%Z by lia. apply IH. lia. }
    apply (G (length l) 0). lia.
  - apply seq_sorted.
  - intros i s E Hi. exfalso. apply Hi, in_seq.
    assert (i < length (linked l)) by (apply nth_error_Some; congruence).
    rewrite linked_length in *. lia.
Qed.

Definition init_step (t : merge_table) (q : list mrg) (p : nat * (sym * sym)) : list mrg :=
  let '(i, (a, b)) := p in
  match lookup_merge t (s_c a) (s_c b) with
  | Some (rank, new) => qpush q (Mrg (Z.of_nat i) rank new)
  | None => q
  end.

Lemma init_fold t ps : forall q,
  (forall e, In e (fold_left (init_step t) ps q) <->
     In e q \/ exists i a b r n, In (i, (a, b)) ps /\
       lookup_merge t (s_c a) (s_c b) = Some (r, n) /\ e = Mrg (Z.of_nat i) r n) /\
  length (fold_left (init_step t) ps q) <= length ps + length q /\
  (hok q -> hok (fold_left (init_step t) ps q)).
Proof.
  induction ps as [|[i [a b]] ps IH]; intros q; cbn [fold_left].
  - split; [|split; [cbn; lia|auto]]. intros e. split; [now left|].
    intros [H|(? & ? & ? & ? & ? & [] & _)]; exact H.
  - destruct (IH (init_step t q (i, (a, b)))) as (I1 & I2 & I3). cbn [init_step] in *.
    destruct (lookup_merge t (s_c a) (s_c b)) as [[r n]|] eqn:E.
    + split; [|split].
      * intros e. rewrite I1, push_in. split.
        -- intros [[->|H]|(i' & a' & b' & r' & n' & H & H1 & H2)].
           ++ right. exists i, a, b, r, n. split; [now left|]. now split.
           ++ now left.
           ++ right. exists i', a', b', r', n'. split; [now right|]. now split.
        -- intros [H|(i' & a' & b' & r' & n' & [[= <- <- <-]|H] & H1 & H2)].
           ++ left; now right.
           ++ left; left. congruence.
           ++ right. exists i', a', b', r', n'. now repeat split.
      * rewrite push_length in I2. cbn. lia.
      * intros H. now apply I3, push_ok.
    + split; [|split].
      * intros e. rewrite I1. split.
        -- intros [H|(i' & a' & b' & r' & n' & H & H1 & H2)]; [now left|].
           right. exists i', a', b', r', n'. split; [now right|]. now split.
        -- intros [H|(i' & a' & b' & r' & n' & [[= <- <- <-]|H] & H1 & H2)].
           ++ now left.
           ++ congruence.
           ++ right. exists i', a', b', r', n'. now repeat split.
      * cbn. lia.
      * exact I3.
Qed.

Lemma nth_error_combine {A B} (a : list A) (b : list B) i x y :
  nth_error (combine a b) i = Some (x, y) <-> nth_error a i = Some x /\ nth_error b i = Some y.
Proof.
  revert b i; induction a as [|a0 a IH]; intros [|b0 b] [|i]; cbn; try (split; [discriminate|intros []; discriminate]).
  - split; [now intros [= -> ->]|now intros [[= ->] [= ->]]].
  - apply IH.
Qed.

Lemma nth_error_tl {A} (l : list A) i : nth_error (tl l) i = nth_error l (S i).
Proof. destruct l; [now destruct i|reflexivity]. Qed.

Lemma init_queue_spec t w :
  (forall e, In e (init_queue t w) <->
     exists i a b r n, nth_error w i = Some a /\ nth_error w (S i) = Some b /\
       lookup_merge t (s_c a) (s_c b) = Some (r, n) /\ e = Mrg (Z.of_nat i) r n) /\
  length (init_queue t w) <= length w /\ hok (init_queue t w).
Proof.
  unfold init_queue.
  destruct (init_fold t (combine (seq 0 (length w)) (combine w (tl w))) []) as (I1 & I2 & I3).
  split; [|split].
  - intros e. change (fun q p => _) with (init_step t) in *.
    assert (G : forall i a b, In (i, (a, b)) (combine (seq 0 (length w)) (combine w (tl w))) <->
              nth_error w i = Some a /\ nth_error w (S i) = Some b).
    { intros i a b. split.
      - intros H. apply In_nth_error in H as (k & H).
        rewrite nth_error_combine_seq in H by (rewrite combine_length; lia).
        destruct (nth_error (combine w (tl w)) k) as [[x y]|] eqn:E; [|discriminate].
        cbn in H. injection H as -> -> ->. apply nth_error_combine in E.
        now rewrite nth_error_tl in E.
      - intros [Ha Hb]. apply (nth_error_In _ i).
        rewrite nth_error_combine_seq by (rewrite combine_length; lia).
        rewrite <- nth_error_tl in Hb.
        now rewrite (proj2 (nth_error_combine w (tl w) i a b) (conj Ha Hb)). }
    rewrite I1. split.
    + intros [[]|(i & a & b & r & n & H & H1 & H2)]. apply G in H as [Ha Hb].
      exists i, a, b, r, n. now repeat split.
    + intros (i & a & b & r & n & Ha & Hb & H1 & H2). right.
      exists i, a, b, r, n. split; [apply G; now split|]. now split.
  - change (fun q p => _) with (init_step t) in *. cbn in I2.
    rewrite !combine_length, seq_length in I2. lia.
  - change (fun q p => _) with (init_step t) in *. apply I3. apply heap_ok_nil.
Qed.

Lemma adj_seq k n x y : adj (seq k n) x y <-> k <= x /\ y = S x /\ S x < k + n.
Proof.
  revert k; induction n as [|n IH]; intros k; cbn [seq].
  - split; [intros (A & B & E); destruct A; discriminate|lia].
  - rewrite adj_cons, IH. split.
    + intros [(-> & L0 & E)|H]; [|lia]. destruct n; cbn in E; [discriminate|].
      injection E as <- _. lia.
    + intros (H1 & -> & H3). destruct (Nat.eq_dec x k) as [->|Hne]; [left|right; lia].
      split; [reflexivity|]. destruct n as [|n]; [lia|]. cbn. eauto.
Qed.

Lemma cof_linked (l : list BpeSpec.seg) i c n : nth_error l i = Some (c, n) -> cof (linked l) i = c.
Proof. intros E. unfold cof. now rewrite nth_error_linked, E. Qed.

Lemma inv_linked t l : positive l ->
  inv t (linked l) (seq 0 (length l)) (init_queue t (linked l)) /\
  forall wt, additive (tbl t) wt ->
    Forall (fresh t wt (linked l) (seq 0 (length l))) (init_queue t (linked l)).
Proof.
  intros P. destruct (init_queue_spec t (linked l)) as (I1 & I2 & I3). split; [split|].
  - now apply rep_linked.
  - apply Forall_forall. intros e He.
    apply I1 in He as (i & a & b & r & n & Ha & Hb & Hlk & ->). split; [|eauto].
    assert (i < length (linked l)) by (apply nth_error_Some; congruence). cbn. unfold zlen. lia.
  - apply complete_adj. intros i j r n Ha Hlk. apply adj_seq in Ha as (_ & -> & Hi).
    apply I1. destruct (nth_error (linked l) i) as [a|] eqn:Ea.
    2:{ apply nth_error_None in Ea. rewrite linked_length in Ea. lia. }
    destruct (nth_error (linked l) (S i)) as [b|] eqn:Eb.
    2:{ apply nth_error_None in Eb. rewrite linked_length in Eb. lia. }
    exists i, a, b, r, n. repeat split; auto. unfold cof in Hlk. now rewrite Ea, Eb in Hlk.
  - exact I3.
  - intros wt Hwt. apply Forall_forall. intros e He.
    apply I1 in He as (i & a & b & r & n & Ha & Hb & Hlk & ->). apply fresh_adj.
    exists (s_c a), (s_c b). split; [exact Hlk|]. intros i' j' Had Hp. cbn in Hp.
    assert (i' = i) as -> by lia. apply adj_seq in Had as (_ & -> & _). left.
    unfold cof. now rewrite Ha, Hb.
Qed.

(** * Main theorems about MergeAll *)

Lemma exhausted_view t w L :
  (forall x y, adj L x y -> lookup_merge t (cof w x) (cof w y) = None) ->
  exhausted (tbl t) (view w L).
Proof.
  intros H A B c1 l1 c2 l2 E. unfold view in E.
  apply map_eq_app in E as (LA & LB & EL & _ & EvB).
  destruct LB as [|x [|y LB]]; cbn [map] in EvB; try discriminate.
  injection EvB as <- _ <- _ _. apply H. now exists LA, LB.
Qed.

Lemma merge_all_main t fuel l : positive l -> 3 * length l < fuel ->
  exists w', merge_all t no_drop fuel (linked l) = Ok w' /\
    merge_steps (tbl t) l (segs w') /\ exhausted (tbl t) (segs w') /\
    (forall wt, additive (tbl t) wt -> ranked_steps (tbl t) l (segs w')).
Proof.
  intros P Hf. destruct (inv_linked t l P) as [I Fr].
  destruct (init_queue_spec t (linked l)) as (_ & I2 & _). rewrite linked_length in I2.
  destruct (merge_loop_main t fuel 0 _ _ _ I) as (w' & L' & E & R' & _ & Ms & Ex & Rk).
  { rewrite seq_length. lia. }
  exists (remove_symbols w'). unfold merge_all. rewrite E. cbn [bind].
  split; [reflexivity|]. unfold segs. rewrite (rep_remove w' L' R').
  rewrite view_linked in *. split; [exact Ms|]. split; [now apply exhausted_view|].
  intros wt Hwt. apply (Rk wt Hwt). now apply Fr.
Qed.

Lemma merge_all_any t drop fuel l : positive l ->
  merge_all t drop fuel (linked l) = NoFuel \/
  exists w', merge_all t drop fuel (linked l) = Ok w' /\ merge_steps (tbl t) l (segs w').
Proof.
  intros P. destruct (inv_linked t l P) as [I _].
  destruct (merge_loop_any t drop fuel 0 (linked l) (init_queue t (linked l)) [] (seq 0 (length l)))
    as [E|(w' & L' & E & R' & _ & Ms)].
  - apply I.
  - apply I.
  - constructor.
  - left. unfold merge_all. now rewrite E.
  - right. exists (remove_symbols w'). unfold merge_all. rewrite E. split; [reflexivity|].
    unfold segs. rewrite (rep_remove w' L' R'), <- (view_linked l) at 1. exact Ms.
Qed.

(** * Facts about merge steps *)

Definition total (l : list BpeSpec.seg) : Z := fold_right (fun p n => snd p + n)%Z 0%Z l.

Lemma total_app a b : total (a ++ b) = (total a + total b)%Z.
Proof. unfold total. induction a as [|x a IH]; cbn; [reflexivity|]. rewrite IH. lia. Qed.

Lemma merge_step_total t r l l' : merge_step t r l l' -> total l' = total l.
Proof. intros [A B c1 l1 c2 l2 r0 n H]. rewrite !total_app. cbn. lia. Qed.

Lemma merge_steps_total t l l' : merge_steps t l l' -> total l' = total l.
Proof. induction 1 as [|r l1 l2 l3 H _ IH]; [reflexivity|]. rewrite IH. eapply merge_step_total; eassumption. Qed.

Lemma merge_step_positive t r l l' : merge_step t r l l' -> positive l -> positive l'.
Proof.
  intros [A B c1 l1 c2 l2 r0 n H] P. unfold positive in *. rewrite Forall_app in *.
  destruct P as [PA PB]. inversion PB as [|? ? P1 PB']; subst. inversion PB' as [|? ? P2 PB'']; subst.
  split; [exact PA|]. constructor; [|exact PB'']. cbn in *. lia.
Qed.

Lemma merge_steps_positive t l l' : merge_steps t l l' -> positive l -> positive l'.
Proof. induction 1 as [|r l1 l2 l3 H _ IH]; [auto|]. intros P. apply IH. eapply merge_step_positive; eassumption. Qed.

Lemma merge_steps_ids t l l' : merge_steps t l l' -> forall c n, In (c, n) l' ->
  (exists m, In (c, m) l) \/ exists c1 c2 r, t c1 c2 = Some (r, c).
Proof.
  induction 1 as [l|r l1 l2 l3 H _ IH]; intros c n Hin; [left; now exists n|].
  destruct (IH c n Hin) as [(m & Hm)|Hx]; [|now right].
  destruct H as [A B c1 n1 c2 n2 r new Ht]. apply in_app_or in Hm as [Hm|[[= <- <-]|Hm]].
  - left. exists m. apply in_or_app. now left.
  - right. now exists c1, c2, r.
  - left. exists m. apply in_or_app. right. right. now right.
Qed.

Lemma get_offsets_tiles w : forall p, positive (segs w) ->
  tiles p (p + total (segs w)) (get_offsets_from p w).
Proof.
  induction w as [|s w IH]; intros p P; cbn [get_offsets_from tiles segs map total fold_right].
  - lia.
  - inversion P as [|? ? P1 P2]; subst. cbn in P1. split; [reflexivity|]. split; [lia|].
    cbn [snd]. fold (segs w). fold (total (segs w)).
    replace (p + (s_len s + total (segs w)))%Z with (p + s_len s + total (segs w))%Z by lia.
    now apply IH.
Qed.

Lemma ranked_merge_steps t l l' : ranked_steps t l l' -> merge_steps t l l'.
Proof. induction 1; [constructor|]. econstructor; eassumption. Qed.
