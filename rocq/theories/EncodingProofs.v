From Verif Require Import Base EncodingModel EncodingSpec.

(** ** Results *)
Lemma bind_Ok_inv {A B} (x : res A) (f : A -> res B) b :
  bind x f = Ok b -> exists a, x = Ok a /\ f a = Ok b.
Proof. destruct x; simpl; try discriminate. eauto. Qed.

Lemma mapR_Ok_Forall2 {A B} (f : A -> res B) l l' :
  mapR f l = Ok l' -> Forall2 (fun x y => f x = Ok y) l l'.
Proof.
  revert l'; induction l as [|x xs IH]; simpl; intros l' H.
  - injection H as <-. constructor.
  - apply bind_Ok_inv in H as (y & Hy & H). apply bind_Ok_inv in H as (ys & Hys & H).
    injection H as <-. constructor; auto.
Qed.

Lemma mapR_all_Ok {A B} (f : A -> res B) (g : A -> B) l :
  (forall x, In x l -> f x = Ok (g x)) -> mapR f l = Ok (map g l).
Proof.
  induction l as [|x xs IH]; simpl; intros H; [reflexivity|].
  rewrite (H x) by auto. simpl. rewrite IH by auto. reflexivity.
Qed.

Lemma mapR_exists_Ok {A B} (f : A -> res B) l :
  (forall x, In x l -> exists y, f x = Ok y) -> exists l', mapR f l = Ok l'.
Proof.
  induction l as [|x xs IH]; simpl; intros H; [eauto|].
  destruct (H x) as [y Hy]; [auto|]. destruct IH as [ys Hys]; [auto|].
  rewrite Hy, Hys. simpl. eauto.
Qed.

Lemma mapR_ext {A B} (f g : A -> res B) l :
  (forall x, In x l -> f x = g x) -> mapR f l = mapR g l.
Proof.
  induction l as [|x xs IH]; simpl; intros H; [reflexivity|].
  rewrite (H x), IH; auto.
Qed.

(** ** Induction over encodings *)
Lemma Encoding_ind' (P : Encoding -> Prop) :
  (forall e, Forall P (overflowing e) -> P e) -> forall e, P e.
Proof.
  intros H. fix IH 1. intros [i t k o s a w ov r]. apply H. simpl.
  induction ov as [|x xs IHx]; constructor; [apply IH | exact IHx].
Qed.

Lemma deep_parallel_inv e :
  deep_parallel e -> parallel e /\ Forall deep_parallel (overflowing e).
Proof. intros []; auto. Qed.

(** ** Windows *)
Lemma firstn_split {A} s p (l : list A) :
  firstn (s + p) l = firstn s l ++ firstn p (skipn s l).
Proof.
  revert l; induction s as [|s IH]; intros l; simpl; [reflexivity|].
  destruct l as [|x l]; simpl; [now rewrite firstn_nil|]. now rewrite IH.
Qed.

Lemma skipn_add {A} a b (l : list A) : skipn a (skipn b l) = skipn (b + a) l.
Proof.
  revert l; induction b as [|b IH]; intros l; simpl; [reflexivity|].
  destruct l; simpl; [apply skipn_nil|]. apply IH.
Qed.

Lemma zslice_prefix {A} (l : list A) m :
  m <= length l -> zslice l 0 (Z.of_nat m) = Ok (firstn m l).
Proof.
  intros H. unfold zslice, zlen.
  replace ((0 <=? 0) && (0 <=? Z.of_nat m) && (Z.of_nat m <=? Z.of_nat (length l)))%Z
    with true by lia.
  do 2 f_equal. lia.
Qed.

Lemma zslice_suffix {A} (l : list A) m :
  m <= length l -> zslice l (Z.of_nat m) (zlen l) = Ok (skipn m l).
Proof.
  intros H. unfold zslice, zlen.
  replace ((0 <=? Z.of_nat m) && (Z.of_nat m <=? Z.of_nat (length l)) && (Z.of_nat (length l) <=? Z.of_nat (length l)))%Z
    with true by lia.
  rewrite Nat2Z.id. f_equal. apply firstn_all2. rewrite skipn_length. lia.
Qed.

(** One step of the window loop on one attribute list. *)
Lemma get_current_part_window {A} (l : list A) m s i :
  s < m -> i * (m - s) + m < length l ->
  get_current_part (window (i * (m - s)) m l) (skipn m l)
    (Z.of_nat m - Z.of_nat s) (Z.of_nat i) (Z.of_nat s)
  = window (S i * (m - s)) m l.
Proof.
  intros Hs Hn. set (p := m - s) in *.
  assert (Hp : (Z.of_nat m - Z.of_nat s)%Z = Z.of_nat p) by lia.
  rewrite Hp. unfold get_current_part.
  replace ((Z.of_nat p <=? 0) || (Z.of_nat i <? 0) || (Z.of_nat s <? 0))%Z
    with false by lia.
  assert (Hlen : length (window (i * p) m l) = m).
  { unfold window. rewrite firstn_length, skipn_length. lia. }
  unfold zlen. rewrite Hlen.
  replace (Z.of_nat m <? Z.of_nat s)%Z with false by lia.
  rewrite skipn_length.
  replace (Z.of_nat i * Z.of_nat p)%Z with (Z.of_nat (i * p)) by lia.
  replace (Z.of_nat (length l - m) <=? Z.of_nat (i * p))%Z with false by lia.
  replace ((Z.of_nat i + 1) * Z.of_nat p)%Z with (Z.of_nat (S i * p)) by lia.
  replace (Z.to_nat (Z.of_nat m - Z.of_nat s)) with p by lia.
  rewrite Nat2Z.id.
  unfold window. rewrite skipn_firstn_comm, !skipn_add.
  replace (m - p) with s by lia.
  replace (firstn m (skipn (S i * p) l))
    with (firstn (s + p) (skipn (S i * p) l)) by (f_equal; lia).
  rewrite firstn_split, skipn_add.
  replace (i * p + p) with (S i * p) by (simpl; lia).
  f_equal.
  replace (S i * p + s) with (m + i * p) by (simpl; lia).
  destruct (Z.of_nat (length l - m) <? Z.of_nat (S i * p))%Z eqn:E.
  - rewrite (firstn_all2 (n := p)).
    + apply firstn_all2. rewrite skipn_length. lia.
    + rewrite skipn_length. simpl in E. lia.
  - f_equal. lia.
Qed.

Section Overflow.
  Variable e : Encoding.
  Variables m s : nat.
  Hypothesis Hpar : parallel e.
  Hypothesis Hs : s < m.
  Let n := length (ids e).
  Let p := m - s.

  Definition rest : Encoding :=
    mkEnc (skipn m (ids e)) (skipn m (type_ids e)) (skipn m (tokens e))
          (skipn m (offsets e)) (skipn m (special e)) (skipn m (attention e))
          (skipn m (words e)) [] None.

  Lemma overflow_parts_windows fuel i :
    m < n -> n <= i * p + m + fuel ->
    exists k,
      overflow_parts fuel (enc_window e (i * p) m) rest
        (Z.of_nat m - Z.of_nat s) (Z.of_nat i) (Z.of_nat s)
      = Ok (map (fun j => enc_window e (S j * p) m) (seq i k))
      /\ n <= (i + k) * p + m
      /\ (k = 0 \/ (i + k - 1) * p + m < n).
  Proof.
    revert i; induction fuel as [|fuel IH]; intros i Hmn Hfuel;
      cbn [overflow_parts];
      replace ((Z.of_nat m - Z.of_nat s) * Z.of_nat i <? zlen (ids rest))%Z
        with (Z.of_nat (i * p) <? Z.of_nat (n - m))%Z
        by (unfold zlen; cbn [ids rest]; rewrite skipn_length; fold n; subst p; f_equal; nia).
    - replace (Z.of_nat (i * p) <? Z.of_nat (n - m))%Z with false by lia.
      exists 0. split; [reflexivity|]. split; [rewrite Nat.add_0_r; lia | now left].
    - destruct (Z.of_nat (i * p) <? Z.of_nat (n - m))%Z eqn:E.
      + assert (Hi : i * p + m < n) by lia.
        destruct Hpar as (P1 & P2 & P3 & P4 & P5 & P6). fold n in P1, P2, P3, P4, P5, P6.
        cbn [rest enc_window ids type_ids tokens offsets special attention words].
        unfold p in Hi |- *.
        rewrite !get_current_part_window by (auto; lia). fold p in Hi |- *.
        destruct (IH (S i)) as (k & Hk & Hk1 & Hk2); [assumption|subst p; simpl; lia|].
        exists (S k).
        replace (Z.of_nat i + 1)%Z with (Z.of_nat (S i)) by lia.
        match goal with |- context [overflow_parts fuel ?a ?b] => change a with (enc_window e (S i * p) m) end.
        match goal with |- context [overflow_parts fuel ?a ?b] => change b with rest end.
        rewrite Hk. cbn [bind].
        split; [reflexivity|].
        split; [replace (i + S k) with (S i + k) by lia; exact Hk1|].
        right. replace (i + S k - 1) with (i + k) by lia.
        destruct Hk2 as [-> | Hk2]; [rewrite Nat.add_0_r; exact Hi|].
        replace (S i + k - 1) with (i + k) in Hk2 by lia. exact Hk2.
      + exists 0. split; [reflexivity|]. split; [rewrite Nat.add_0_r; lia | now left].
  Qed.
End Overflow.

Lemma enc_window_0 e m :
  enc_window e 0 m = mkEnc (firstn m (ids e)) (firstn m (type_ids e)) (firstn m (tokens e))
        (firstn m (offsets e)) (firstn m (special e)) (firstn m (attention e))
        (firstn m (words e)) [] None.
Proof. reflexivity. Qed.

Lemma truncate_long e m s :
  parallel e -> s < m -> m < length (ids e) ->
  exists k,
    truncate e (Z.of_nat m) (Z.of_nat s)
      = Ok (enc_prefix e m (map (fun j => enc_window e (S j * (m - s)) m) (seq 0 k)), false)
    /\ 0 < k
    /\ length (ids e) <= k * (m - s) + m
    /\ (k - 1) * (m - s) + m < length (ids e).
Proof.
  intros Hpar Hs Hlen. pose proof Hpar as (P1 & P2 & P3 & P4 & P5 & P6).
  unfold truncate.
  replace ((Z.of_nat m <=? Z.of_nat s) || (Z.of_nat m =? 0))%Z with false by lia.
  replace (zlen (ids e) <=? Z.of_nat m)%Z with false by (unfold zlen; lia).
  rewrite !zslice_prefix, !zslice_suffix by lia. cbn [bind].
  destruct (overflow_parts_windows e m s Hpar Hs (length (skipn m (ids e))) 0)
    as (k & Hk & Hk1 & Hk2); [assumption | rewrite skipn_length; lia |].
  rewrite Nat.mul_0_l, enc_window_0 in Hk. unfold rest in Hk.
  change (Z.of_nat 0) with 0%Z in Hk. rewrite Hk. cbn [bind].
  simpl in Hk1, Hk2.
  exists k. split; [reflexivity|].
  assert (0 < k) by (destruct k; [simpl in Hk1; lia | lia]).
  split; [assumption|]. split; [exact Hk1|].
  destruct Hk2 as [->|Hk2]; [lia|exact Hk2].
Qed.

(** The error / no-op / success classification for arbitrary integers. *)
Lemma truncate_cases e m s :
  parallel e -> (0 <= m)%Z -> (0 <= s)%Z ->
  ((s >= m \/ m = 0) /\ truncate e m s = Ok (e, true))%Z \/
  ((s < m /\ zlen (ids e) <= m) /\ truncate e m s = Ok (e, false))%Z \/
  ((s < m /\ m < zlen (ids e)) /\ exists e', truncate e m s = Ok (e', false) /\
     zlen (ids e') = m)%Z.
Proof.
  intros Hpar Hm Hs.
  destruct ((m <=? s) || (m =? 0))%Z eqn:E1.
  - left. split; [lia|]. unfold truncate. now rewrite E1.
  - destruct (zlen (ids e) <=? m)%Z eqn:E2.
    + right; left. split; [lia|]. unfold truncate. now rewrite E1, E2.
    + right; right. split; [lia|].
      destruct (truncate_long e (Z.to_nat m) (Z.to_nat s)) as (k & Hk & _);
        [assumption|lia|unfold zlen in E2; lia|].
      rewrite !Z2Nat.id in Hk by lia. eexists. split; [exact Hk|].
      unfold zlen, enc_prefix. cbn [ids]. rewrite firstn_length. unfold zlen in E2. lia.
Qed.

(** ** Windows of a parallel encoding are parallel *)
Lemma window_length {A} a n (l : list A) : length (window a n l) = min n (length l - a).
Proof. unfold window. now rewrite firstn_length, skipn_length. Qed.

Lemma parallel_window e a n : parallel e -> deep_parallel (enc_window e a n).
Proof.
  intros (P1 & P2 & P3 & P4 & P5 & P6). constructor.
  - unfold parallel, enc_window; cbn. rewrite !window_length. repeat split; congruence.
  - constructor.
Qed.

Lemma get_current_part_length {A B} (p1 c1 : list A) (p2 c2 : list B) a b c :
  length p1 = length p2 -> length c1 = length c2 ->
  length (get_current_part p1 c1 a b c) = length (get_current_part p2 c2 a b c).
Proof.
  intros H1 H2. unfold get_current_part, zlen. rewrite H1, H2.
  destruct ((a <=? 0) || (b <? 0) || (c <? 0))%Z; [reflexivity|].
  destruct (Z.of_nat (length p2) <? c)%Z;
  destruct (Z.of_nat (length c2) <=? b * a)%Z;
  rewrite ?app_length, ?skipn_length, ?firstn_length, ?skipn_length; lia.
Qed.

Lemma overflow_parts_parallel fuel prev o size i s l :
  parallel prev -> parallel o ->
  overflow_parts fuel prev o size i s = Ok l -> Forall deep_parallel l.
Proof.
  revert prev i l; induction fuel as [|fuel IH]; intros prev i l Hp Ho H; cbn in H.
  - destruct (size * i <? zlen (ids o))%Z; [discriminate|]. injection H as <-. constructor.
  - destruct (size * i <? zlen (ids o))%Z; [|injection H as <-; constructor].
    apply bind_Ok_inv in H as (ws & Hws & H). injection H as <-.
    assert (Hw : parallel (mkEnc
          (get_current_part (ids prev) (ids o) size i s)
          (get_current_part (type_ids prev) (type_ids o) size i s)
          (get_current_part (tokens prev) (tokens o) size i s)
          (get_current_part (offsets prev) (offsets o) size i s)
          (get_current_part (special prev) (special o) size i s)
          (get_current_part (attention prev) (attention o) size i s)
          (get_current_part (words prev) (words o) size i s)
          [] None)).
    { destruct Hp as (? & ? & ? & ? & ? & ?), Ho as (? & ? & ? & ? & ? & ?).
      repeat split; cbn; apply get_current_part_length; congruence. }
    constructor.
    + constructor; [exact Hw | constructor].
    + eapply IH; [exact Hw | exact Ho | exact Hws].
Qed.

Lemma zslice_inv {A} (l : list A) i j r :
  zslice l i j = Ok r ->
  (0 <= i <= j)%Z /\ (j <= zlen l)%Z /\ length r = Z.to_nat (j - i).
Proof.
  unfold zslice. destruct ((0 <=? i) && (i <=? j) && (j <=? zlen l))%Z eqn:E; [|discriminate].
  intros [= <-]. unfold zlen in *. rewrite firstn_length, skipn_length. lia.
Qed.

Lemma truncate_deep_parallel e m s e' b :
  deep_parallel e -> truncate e m s = Ok (e', b) -> deep_parallel e'.
Proof.
  intros Hdp H. unfold truncate in H.
  destruct ((m <=? s) || (m =? 0))%Z; [injection H as <- <-; exact Hdp|].
  destruct (zlen (ids e) <=? m)%Z; [injection H as <- <-; exact Hdp|].
  apply deep_parallel_inv in Hdp as [(P1 & P2 & P3 & P4 & P5 & P6) _].
  repeat match type of H with
  | bind (zslice _ _ _) _ = _ =>
      let x := fresh "x" in let Hx := fresh "Hx" in
      apply bind_Ok_inv in H as (x & Hx & H); apply zslice_inv in Hx as (_ & _ & Hx);
      unfold zlen in Hx; rewrite ?P1, ?P2, ?P3, ?P4, ?P5, ?P6 in Hx
  end.
  apply bind_Ok_inv in H as (parts & Hparts & H). injection H as <- <-.
  constructor.
  - repeat split; cbn; congruence.
  - cbn. eapply overflow_parts_parallel; [| |exact Hparts];
      repeat split; cbn; congruence.
Qed.

(** ** Padding *)
Lemma pad1_right e t a b c :
  pad1 e t a b c PRight = Ok (pad_right_by e (Z.to_nat (t - zlen (ids e))) a b c).
Proof. reflexivity. Qed.

Lemma pad_right_by_0 e a b c : pad_right_by e 0 a b c = e.
Proof. destruct e; unfold pad_right_by; cbn; now rewrite !app_nil_r. Qed.

Lemma parallel_pad_right e n a b c : parallel e -> parallel (pad_right_by e n a b c).
Proof.
  intros (P1 & P2 & P3 & P4 & P5 & P6). repeat split; cbn;
  rewrite ?app_length, ?repeat_length; congruence.
Qed.

Lemma pad_right_spec e t a b c :
  pad e t a b c PRight
  = Ok (pad_right_by
          (set_overflowing e
             (map (fun o => pad_right_by o (Z.to_nat (t - zlen (ids o))) a b c) (overflowing e)))
          (Z.to_nat (t - zlen (ids e))) a b c).
Proof.
  unfold pad.
  rewrite (mapR_all_Ok _ (fun o => pad_right_by o (Z.to_nat (t - zlen (ids o))) a b c))
    by (intros; apply pad1_right).
  cbn [bind]. destruct (t <=? zlen (ids e))%Z eqn:E; [|reflexivity].
  replace (Z.to_nat (t - zlen (ids e))) with 0 by lia. now rewrite pad_right_by_0.
Qed.

Lemma pad_right_deep_parallel e t a b c e' :
  deep_parallel e -> pad e t a b c PRight = Ok e' -> deep_parallel e'.
Proof.
  rewrite pad_right_spec. intros H [= <-]. apply deep_parallel_inv in H as [H1 H2].
  constructor.
  - apply parallel_pad_right. exact H1.
  - cbn. apply Forall_map. eapply Forall_impl; [|exact H2]. cbn. intros o Ho.
    apply deep_parallel_inv in Ho as [Ho1 Ho2]. constructor.
    + now apply parallel_pad_right.
    + exact Ho2.
Qed.

(** ** Merging *)
Lemma merge_with_eq growing e p :
  merge_with growing e p =
    do part1 <- mapR (fun o =>
        do m <- merge_with growing o p;
        do ms <- mapR (fun q => merge_with growing o q) (overflowing p);
        Ok (m :: ms)) (overflowing e);
    do part2 <- mapR (fun q => merge_with growing e q) (overflowing p);
    merge_flat e p growing (concat part1 ++ part2).
Proof. destruct e, p; reflexivity. Qed.

Lemma merge_flat_inv e p g over r :
  merge_flat e p g over = Ok r ->
  overflowing r = over /\
  flat r = enc_append e p (starting_offset g (offsets e)).
Proof.
  unfold merge_flat. intros H. apply bind_Ok_inv in H as (rs & _ & H).
  injection H as <-. split; reflexivity.
Qed.

Lemma starting_offset_growth g e : starting_offset g (offsets e) = growth g e.
Proof.
  unfold starting_offset, growth. destruct g; [|reflexivity].
  destruct (offsets e) as [|o l] using rev_ind; [reflexivity|].
  now rewrite last_last, rev_unit.
Qed.

Lemma merge_with_flat g e p r :
  merge_with g e p = Ok r -> flat r = enc_append e p (growth g e).
Proof.
  rewrite merge_with_eq. intros H.
  apply bind_Ok_inv in H as (p1 & _ & H). apply bind_Ok_inv in H as (p2 & _ & H).
  apply merge_flat_inv in H as [_ H]. now rewrite <- starting_offset_growth.
Qed.

Lemma merge_with_overflow g e p r :
  merge_with g e p = Ok r -> map flat (overflowing r) = over_spec g e p.
Proof.
  rewrite merge_with_eq. intros H.
  apply bind_Ok_inv in H as (p1 & H1 & H). apply bind_Ok_inv in H as (p2 & H2 & H).
  apply merge_flat_inv in H as [-> _]. rewrite map_app. unfold over_spec.
  apply mapR_Ok_Forall2 in H1. apply mapR_Ok_Forall2 in H2. f_equal.
  - induction H1 as [|o m l l' Hom _ IH]; [reflexivity|].
    apply bind_Ok_inv in Hom as (m0 & Hm0 & Hom).
    apply bind_Ok_inv in Hom as (ms & Hms & Hom). injection Hom as <-.
    cbn [concat flat_map map]. rewrite map_app, IH. f_equal. cbn [map]. f_equal.
    + now apply merge_with_flat.
    + apply mapR_Ok_Forall2 in Hms. clear -Hms.
      induction Hms as [|q r l l' Hq _ IH]; [reflexivity|]. cbn [map].
      rewrite IH. f_equal. now apply merge_with_flat.
  - clear -H2. induction H2 as [|q r l l' Hq _ IH]; [reflexivity|]. cbn [map].
    rewrite IH. f_equal. now apply merge_with_flat.
Qed.

Lemma over_spec_length g e p :
  length (over_spec g e p)
  = length (overflowing e) * (1 + length (overflowing p)) + length (overflowing p).
Proof.
  unfold over_spec. rewrite app_length, map_length. f_equal.
  induction (overflowing e) as [|o l IH]; [reflexivity|].
  cbn [flat_map]. rewrite app_length, IH, map_length. cbn [length]. lia.
Qed.

Lemma parallel_append e p d : parallel e -> parallel p -> parallel (enc_append e p d).
Proof.
  intros (P1 & P2 & P3 & P4 & P5 & P6) (Q1 & Q2 & Q3 & Q4 & Q5 & Q6).
  repeat split; cbn; rewrite ?app_length, ?map_length; congruence.
Qed.

Lemma parallel_flat e : parallel (flat e) <-> parallel e.
Proof. reflexivity. Qed.

Lemma merge_with_deep_parallel g e : forall p r,
  deep_parallel e -> deep_parallel p -> merge_with g e p = Ok r -> deep_parallel r.
Proof.
  induction e as [e IHe] using Encoding_ind'.
  intros p; induction p as [p IHp] using Encoding_ind'; intros r He Hp H.
  pose proof (merge_with_flat _ _ _ _ H) as Hflat.
  rewrite merge_with_eq in H.
  apply bind_Ok_inv in H as (p1 & H1 & H). apply bind_Ok_inv in H as (p2 & H2 & H).
  apply merge_flat_inv in H as [Hov _].
  pose proof (deep_parallel_inv _ He) as [He1 He2].
  pose proof (deep_parallel_inv _ Hp) as [Hp1 Hp2].
  constructor.
  - apply (proj1 (parallel_flat r)). rewrite Hflat. now apply parallel_append.
  - rewrite Hov. apply Forall_app; split.
    + apply mapR_Ok_Forall2 in H1. clear -H1 He2 Hp Hp2 IHe.
      induction H1 as [|o m l l' Hom _ IH]; [constructor|].
      inversion He2; inversion IHe; subst. cbn [concat]. apply Forall_app; split; [|now apply IH].
      apply bind_Ok_inv in Hom as (m0 & Hm0 & Hom).
      apply bind_Ok_inv in Hom as (ms & Hms & Hom). injection Hom as <-.
      constructor; [eauto|].
      apply mapR_Ok_Forall2 in Hms. clear -Hms H1 H5 Hp2.
      induction Hms as [|q r l l' Hq _ IH]; [constructor|].
      inversion Hp2; subst. constructor; eauto.
    + apply mapR_Ok_Forall2 in H2. clear -H2 He Hp2 IHp.
      induction H2 as [|q r l l' Hq _ IH]; [constructor|].
      inversion Hp2; inversion IHp; subst. constructor; eauto.
Qed.

(** Merging succeeds on encodings whose range maps are well formed. *)
Lemma zindex_0 {A} (x : A) l : zindex (x :: l) 0 = Ok x.
Proof. reflexivity. Qed.

Lemma zindex_last (x : Z) l : zindex (x :: l) (zlen (x :: l) - 1) = Ok (last (x :: l) 0%Z).
Proof.
  unfold zindex, zlen. cbn [length].
  replace (0 <=? Z.of_nat (S (length l)) - 1)%Z with true by lia.
  replace (Z.to_nat (Z.of_nat (S (length l)) - 1)) with (length l) by lia.
  revert x; induction l as [|y l IH]; intros x; [reflexivity|].
  cbn [length nth_error]. rewrite IH. reflexivity.
Qed.

Lemma new_range_Ok s t : (0 <= s < t)%Z -> new_range s t = Ok (zrange (Z.to_nat (t - s)) s).
Proof.
  intros H. unfold new_range. replace (s <? 0)%Z with false by lia.
  now replace ((t <? 0) || (t <=? s))%Z with false by lia.
Qed.

Lemma zrange_last n s : (0 < n) -> last (zrange n s) 0%Z = (s + Z.of_nat n - 1)%Z.
Proof.
  revert s; induction n as [|n IH]; intros s H; [lia|].
  destruct n as [|n]; [cbn; lia|].
  change (zrange (S (S n)) s) with (s :: zrange (S n) (s + 1)).
  change (last (s :: zrange (S n) (s + 1)) 0%Z) with (last (zrange (S n) (s + 1)) 0%Z).
  rewrite IH by lia. lia.
Qed.

Lemma aset_in {V} k (v : V) m k' v' :
  In (k', v') (aset Z.eqb k v m) -> (v' = v) \/ In (k', v') m.
Proof.
  induction m as [|[k0 v0] m IH]; cbn.
  - intros [[= <- <-]|[]]; auto.
  - destruct (Z.eqb k k0); cbn; intros [[= <- <-]|H]; auto.
    destruct (IH H); auto.
Qed.

Definition map_ok (m : list (Z * list Z)) : Prop :=
  forall k r, In (k, r) m -> exists x l, r = x :: l /\ (0 <= x)%Z /\ (x <= last r 0)%Z.

Lemma merge_ranges_Ok n m theirs :
  (0 <= n)%Z -> map_ok m ->
  map_ok (match theirs with None => [] | Some t => t end) ->
  exists m', merge_ranges n (Some m) theirs = Ok (Some m') /\ map_ok m'.
Proof.
  intros Hn Hm. unfold merge_ranges.
  set (t := match theirs with None => [] | Some t => t end). clearbody t.
  revert m Hm; induction t as [|[k r] t IH]; intros m Hm Ht; cbn [foldR].
  - eauto.
  - destruct (Ht k r) as (x & l & -> & Hx & Hl); [now left|].
    rewrite zindex_0. cbn [bind]. rewrite zindex_last. cbn [bind].
    rewrite new_range_Ok by lia. cbn [bind].
    apply IH.
    + intros k' r' Hin. apply aset_in in Hin as [->|Hin]; [|eauto].
      set (c := Z.to_nat _). assert (Hc : 0 < c) by lia.
      destruct c as [|c]; [lia|]. cbn [zrange]. do 2 eexists. split; [reflexivity|].
      split; [lia|]. pose proof (zrange_last (S c) (n + x) Hc) as HL. cbn [zrange] in HL.
      rewrite HL. lia.
    + intros k' r' Hin. apply (Ht k' r'). now right.
Qed.

Lemma merge_with_total g e : forall p,
  deep_ranges e -> deep_ranges p -> exists r, merge_with g e p = Ok r /\ deep_ranges r.
Proof.
  induction e as [e IHe] using Encoding_ind'.
  intros p; induction p as [p IHp] using Encoding_ind'; intros He Hp.
  rewrite merge_with_eq.
  inversion He as [? He1 He2 He3]; inversion Hp as [? Hp1 Hp2 Hp3]; subst.
  assert (exists p1, mapR (fun o =>
        do m <- merge_with g o p;
        do ms <- mapR (fun q => merge_with g o q) (overflowing p);
        Ok (m :: ms)) (overflowing e) = Ok p1 /\ Forall deep_ranges (concat p1)) as (p1 & -> & F1).
  { clear -IHe He3 Hp Hp3. induction (overflowing e) as [|o l IH]; [cbn; eauto|].
    inversion IHe; inversion He3; subst.
    destruct (H1 p H5 Hp) as (r & Hr & Dr). cbn [mapR]. rewrite Hr. cbn [bind].
    assert (exists ms, mapR (fun q => merge_with g o q) (overflowing p) = Ok ms /\ Forall deep_ranges ms)
      as (ms & -> & Fms).
    { clear -H1 H5 Hp3. induction (overflowing p) as [|q l IH]; [cbn; eauto|].
      inversion Hp3; subst. destruct (H1 q H5 H2) as (r & Hr & Dr). cbn. rewrite Hr. cbn.
      destruct IH as (ms & Hms & Fms); [assumption|]. rewrite Hms. cbn. eauto. }
    cbn [bind]. destruct IH as (p1 & Hp1 & Fp1); try assumption.
    rewrite Hp1. cbn [bind]. eexists. split; [reflexivity|].
    cbn [concat]. apply Forall_app. split; [constructor; auto | assumption]. }
  cbn [bind].
  assert (exists p2, mapR (fun q => merge_with g e q) (overflowing p) = Ok p2 /\ Forall deep_ranges p2)
    as (p2 & -> & F2).
  { clear -IHp He Hp3. induction (overflowing p) as [|q l IH]; [cbn; eauto|].
    inversion IHp; inversion Hp3; subst.
    destruct (H1 He H5) as (r & Hr & Dr). cbn. rewrite Hr. cbn.
    destruct IH as (ms & Hms & Fms); try assumption. rewrite Hms. cbn. eauto. }
  cbn [bind]. unfold merge_flat.
  destruct (seq_ranges e) as [m|] eqn:E; [|congruence].
  destruct (merge_ranges_Ok (enc_len e) m (seq_ranges p)) as (m' & -> & Hm').
  - unfold enc_len, zlen. lia.
  - unfold ranges_ok in He2. now rewrite E in He2.
  - unfold ranges_ok in Hp2. destruct (seq_ranges p); [exact Hp2 | intros ? ? []].
  - cbn [bind]. eexists. split; [reflexivity|]. constructor; cbn.
    + discriminate.
    + exact Hm'.
    + apply Forall_app; split; assumption.
Qed.

(** ** Histories *)
Lemma enc_step_parallel e o e' :
  deep_parallel e -> op_parallel o -> enc_step e o = Ok e' -> deep_parallel e'.
Proof.
  intros He Ho H. destruct o; cbn in *.
  - apply bind_Ok_inv in H as ([e1 b] & H1 & H). injection H as <-.
    exact (truncate_deep_parallel _ _ _ _ _ He H1).
  - exact (pad_right_deep_parallel _ _ _ _ _ _ He H).
  - exact (merge_with_deep_parallel _ _ _ _ He Ho H).
Qed.

Lemma history_parallel ops : forall e e',
  deep_parallel e -> Forall op_parallel ops ->
  foldR enc_step ops e = Ok e' -> deep_parallel e'.
Proof.
  induction ops as [|o ops IH]; intros e e' He Hops H; cbn in H.
  - now injection H as <-.
  - inversion Hops; subst. apply bind_Ok_inv in H as (e1 & H1 & H).
    eapply IH; [eapply enc_step_parallel; eauto|assumption|exact H].
Qed.

(** ** Batch padding *)
Lemma fold_max_spec l m :
  (m <= fold_left (fun m e => if (m <? enc_len e)%Z then enc_len e else m) l m)%Z /\
  (forall e, In e l -> enc_len e <= fold_left (fun m e => if (m <? enc_len e)%Z then enc_len e else m) l m)%Z.
Proof.
  revert m; induction l as [|x l IH]; intros m; cbn; [split; [lia|easy]|].
  destruct (m <? enc_len x)%Z eqn:E; destruct (IH (if (m <? enc_len x)%Z then enc_len x else m)) as [H1 H2];
    rewrite E in H1, H2; (split; [lia|]); intros e [<-|He]; try lia; now apply H2.
Qed.

Lemma fold_max_attained l m :
  let r := fold_left (fun m e => if (m <? enc_len e)%Z then enc_len e else m) l m in
  r = m \/ exists e, In e l /\ enc_len e = r.
Proof.
  revert m; induction l as [|x l IH]; intros m; cbn; [now left|].
  destruct (m <? enc_len x)%Z eqn:E.
  - destruct (IH (enc_len x)) as [->|(e & He & Hr)]; right; eauto.
  - destruct (IH m) as [->|(e & He & Hr)]; [now left|right; eauto].
Qed.

Lemma pad_right_by_len e n a b c : zlen (ids (pad_right_by e n a b c)) = (zlen (ids e) + Z.of_nat n)%Z.
Proof. unfold zlen, pad_right_by. cbn. rewrite app_length, repeat_length. lia. Qed.

(** ** Longest-first arithmetic *)
Lemma longest_first_single n k : (0 <= n)%Z -> (Z.of_nat k <= n)%Z ->
  longest_first_loop k n 0 = (n - Z.of_nat k, - Z.of_nat k)%Z.
Proof.
  intros Hn Hk.
  assert (forall j a, (Z.of_nat j + Z.of_nat k <= n)%Z -> (a = n - Z.of_nat j)%Z ->
     longest_first_loop k a (- Z.of_nat j) = (n - Z.of_nat j - Z.of_nat k, - Z.of_nat j - Z.of_nat k)%Z) as H.
  { clear Hk. induction k as [|k IH]; intros j a Hj Ha; cbn [longest_first_loop].
    - f_equal; lia.
    - replace (- Z.of_nat j <? a)%Z with true by lia.
      replace (- Z.of_nat j - 1)%Z with (- Z.of_nat (S j))%Z by lia.
      rewrite IH by lia. f_equal; lia. }
  specialize (H 0 n). change (- Z.of_nat 0)%Z with 0%Z in H.
  rewrite H by lia. f_equal; lia.
Qed.

Lemma longest_first_second k a b : snd (longest_first_loop k a b) = (b - Z.of_nat k)%Z.
Proof. revert a b; induction k as [|k IH]; intros a b; cbn; [lia|]. rewrite IH. lia. Qed.

Lemma longest_first_first k a b : (fst (longest_first_loop k a b) <= a)%Z.
Proof.
  revert a b; induction k as [|k IH]; intros a b; cbn; [lia|].
  destruct (b <? a)%Z; [specialize (IH (a - 1)%Z (b - 1)%Z) | specialize (IH a (b - 1)%Z)]; lia.
Qed.

(** Closed form of the longest-first loop. *)
Lemma longest_first_closed k a b :
  longest_first_loop k a b
  = (a - Z.max 0 (Z.of_nat k - Z.max 0 (b - a + 1)), b - Z.of_nat k)%Z.
Proof.
  revert a b; induction k as [|k IH]; intros a b; cbn [longest_first_loop].
  - f_equal; lia.
  - rewrite IH. destruct (b <? a)%Z eqn:E; f_equal; lia.
Qed.

(** Length after a Truncate whose error is ignored. *)
Lemma truncate_ignoring_error_len e m s :
  parallel e -> (0 <= s)%Z ->
  (m <= s)%Z \/ m = 0%Z -> truncate_ignoring_error e m s = Ok e.
Proof.
  intros _ _ H. unfold truncate_ignoring_error, truncate.
  replace ((m <=? s) || (m =? 0))%Z with true by lia. reflexivity.
Qed.

Lemma truncate_ignoring_error_ok e m s :
  parallel e -> (0 <= s < m)%Z ->
  exists e', truncate_ignoring_error e m s = Ok e' /\
    enc_len e' = Z.min m (enc_len e) /\
    (exists over, flat e' = flat (enc_prefix e (Z.to_nat m) over)).
Proof.
  intros Hp Hs. unfold truncate_ignoring_error.
  destruct (truncate_cases e m s Hp) as [[H ->]|[[H ->]|[H (e' & He & Hl)]]]; try lia.
  - cbn. eexists. split; [reflexivity|]. unfold enc_len, zlen in *. split; [lia|].
    exists []. unfold flat, enc_prefix; cbn.
    destruct Hp as (P1 & P2 & P3 & P4 & P5 & P6).
    rewrite !firstn_all2 by lia. reflexivity.
  - destruct (truncate_long e (Z.to_nat m) (Z.to_nat s)) as (k & Hk & _);
      [assumption|lia|unfold zlen in H; lia|].
    rewrite !Z2Nat.id in Hk by lia. rewrite Hk in He. injection He as <-.
    rewrite Hk. cbn. eexists. split; [reflexivity|].
    unfold enc_len in *. split; [rewrite Hl; lia|]. exists []. reflexivity.
Qed.

(** ** Truncate: coverage *)
Lemma window_nth {A} a n (l : list A) i d :
  i < n -> nth i (window a n l) d = nth (a + i) l d.
Proof.
  intros H. unfold window.
  destruct (Nat.lt_ge_cases (a + i) (length l)) as [Hi|Hi].
  - rewrite <- (firstn_skipn n (skipn a l)) at 1.
    assert (nth i (firstn n (skipn a l)) d = nth i (skipn a l) d) as E.
    { rewrite <- (firstn_skipn n (skipn a l)) at 2.
      rewrite app_nth1; [reflexivity|]. rewrite firstn_length, skipn_length. lia. }
    rewrite firstn_skipn, E.
    rewrite <- (firstn_skipn a l) at 2. rewrite app_nth2; rewrite firstn_length; [|lia].
    f_equal. lia.
  - rewrite !nth_overflow; [reflexivity|lia|]. rewrite firstn_length, skipn_length. lia.
Qed.

Lemma truncate_covers e m s e' :
  parallel e -> s < m -> m < length (ids e) ->
  truncate e (Z.of_nat m) (Z.of_nat s) = Ok (e', false) ->
  forall i, i < length (ids e) ->
    (i < length (ids e') /\ nth i (ids e') 0%Z = nth i (ids e) 0%Z) \/
    exists j w q, nth_error (overflowing e') j = Some w /\ q < length (ids w) /\
      q + (j + 1) * (m - s) = i /\ nth q (ids w) 0%Z = nth i (ids e) 0%Z.
Proof.
  intros Hp Hs Hm Ht i Hi.
  destruct (truncate_long e m s Hp Hs Hm) as (k & Hk & Hk0 & Hk1 & Hk2).
  rewrite Hk in Ht. injection Ht as <-. cbn [enc_prefix ids overflowing].
  destruct (Nat.lt_ge_cases i m) as [Him|Him].
  - left. rewrite firstn_length. split; [lia|].
    pose proof (window_nth 0 m (ids e) i 0%Z Him) as W. exact W.
  - right.
    set (p := m - s) in *. assert (Hpp : 0 < p) by lia.
    (* the window index: least j with i < (j+1)*p + m *)
    set (j := (i - m) / p).
    assert (Hj : j * p <= i - m < (j + 1) * p).
    { subst j. pose proof (Nat.div_mod (i - m) p ltac:(lia)) as D.
      pose proof (Nat.mod_upper_bound (i - m) p ltac:(lia)) as U. nia. }
    assert (Hjk : j < k) by nia.
    exists j, (enc_window e (S j * p) m), (i - (j + 1) * p).
    split.
    + rewrite nth_error_map, nth_error_nth' with (d := 0) by (rewrite seq_length; lia).
      rewrite seq_nth by lia. reflexivity.
    + cbn [enc_window ids]. rewrite window_length.
      assert (Hge : (j + 1) * p <= i) by nia.
      assert (Hlt : i - (j + 1) * p < m) by nia.
      split; [simpl; lia|]. split; [lia|].
      rewrite window_nth by assumption. f_equal. simpl. lia.
Qed.

(** ** Lookups *)
Lemma char2token_loop_spec l i pos :
  match char2token_loop l i pos with
  | Some t => exists n o, t = (i + Z.of_nat n)%Z /\ nth_error l n = Some o /\
      (fst o <= pos < snd o)%Z /\
      forall n' o', n' < n -> nth_error l n' = Some o' -> ~ (fst o' <= pos < snd o')%Z
  | None => forall o, In o l -> ~ (fst o <= pos < snd o)%Z
  end.
Proof.
  revert i; induction l as [|o l IH]; intros i; cbn; [easy|].
  destruct ((fst o <=? pos) && (pos <? snd o))%Z eqn:E.
  - exists 0, o. split; [lia|]. split; [reflexivity|]. split; [lia|]. intros n' ? H; lia.
  - specialize (IH (i + 1)%Z). destruct (char2token_loop l (i + 1) pos).
    + destruct IH as (n & o1 & -> & Hn & Ho & Hmin). exists (S n), o1.
      split; [lia|]. split; [exact Hn|]. split; [exact Ho|].
      intros [|n'] o' Hlt Hnth; cbn in Hnth.
      * injection Hnth as <-. lia.
      * apply (Hmin n'); [lia|exact Hnth].
    + intros o' [<-|Hin]; [lia|now apply IH].
Qed.

Lemma token2word_loop_spec l i t :
  token2word_loop l i t = if (t <? i)%Z then None else nth_error l (Z.to_nat (t - i)).
Proof.
  revert i; induction l as [|w l IH]; intros i; cbn.
  - destruct (t <? i)%Z; [reflexivity|]. now destruct (Z.to_nat (t - i)).
  - destruct (i =? t)%Z eqn:E.
    + replace (t <? i)%Z with false by lia. replace (Z.to_nat (t - i)) with 0 by lia. reflexivity.
    + rewrite IH. destruct (t <? i)%Z eqn:E1.
      * now replace (t <? i + 1)%Z with true by lia.
      * replace (t <? i + 1)%Z with false by lia.
        replace (Z.to_nat (t - i)) with (S (Z.to_nat (t - (i + 1)))) by lia. reflexivity.
Qed.

Lemma nondecreasing_cons x l :
  nondecreasing (x :: l) -> nondecreasing l /\ (forall y, In y l -> (x <= y)%Z).
Proof.
  intros H. split.
  - intros i j Hij. apply (H (S i) (S j)). cbn. lia.
  - intros y Hy. apply (In_nth _ _ 0%Z) in Hy as (n & Hn & <-).
    apply (H 0 (S n)). cbn. lia.
Qed.

(** In a sorted list the filtered list is a prefix. *)
Lemma filter_sorted_prefix l w : nondecreasing l ->
  exists r, l = filter (fun x => (x <=? w)%Z) l ++ r /\ (forall y, In y r -> (w < y)%Z).
Proof.
  induction l as [|x l IH]; intros Hs; cbn; [exists []; easy|].
  apply nondecreasing_cons in Hs as [Hs Hx].
  destruct (x <=? w)%Z eqn:E.
  - destruct (IH Hs) as (r & Hr & Hw). exists r. split; [|exact Hw].
    cbn. now rewrite <- Hr.
  - exists (x :: l). split.
    + assert (filter (fun y => (y <=? w)%Z) l = []) as ->; [|reflexivity].
      clear -Hx E. induction l as [|y l IH]; [reflexivity|]. cbn.
      specialize (Hx y (or_introl eq_refl)) as Hy.
      replace (y <=? w)%Z with false by lia. apply IH. intros z Hz. apply Hx. now right.
    + intros y [<-|Hy]; [lia|]. specialize (Hx y Hy). lia.
Qed.

Lemma first_index_spec p l i :
  match first_index p l i with
  | Some t => exists n x, t = (i + Z.of_nat n)%Z /\ nth_error l n = Some x /\ p x = true /\
      forall n' y, n' < n -> nth_error l n' = Some y -> p y = false
  | None => forall x, In x l -> p x = false
  end.
Proof.
  revert i; induction l as [|x l IH]; intros i; cbn; [easy|].
  destruct (p x) eqn:E.
  - exists 0, x. repeat split; auto; [lia|]. intros n' ? H; lia.
  - specialize (IH (i + 1)%Z). destruct (first_index p l (i + 1)).
    + destruct IH as (n & y & -> & Hn & Hy & Hmin). exists (S n), y.
      split; [lia|]. split; [exact Hn|]. split; [exact Hy|].
      intros [|n'] z Hlt Hnth; cbn in Hnth; [now injection Hnth as <-|].
      apply (Hmin n'); [lia|exact Hnth].
    + intros y [<-|Hin]; auto.
Qed.

Lemma word2tokens_sorted e w :
  nondecreasing (words e) -> In w (words e) ->
  exists s t, word2tokens e w = Some (s, t) /\ is_word_range e w s t.
Proof.
  intros Hs Hin. unfold word2tokens.
  destruct (filter_sorted_prefix (words e) w Hs) as (r & Hr & Hw).
  set (f := filter (fun x => (x <=? w)%Z) (words e)) in *.
  pose proof (first_index_spec (fun x => (x =? w)%Z) f 0) as F.
  destruct (first_index _ f 0) as [s|].
  - destruct F as (n & x & -> & Hn & Hx & Hmin). exists (Z.of_nat n), (zlen f).
    split; [reflexivity|].
    assert (Hlen : n < length f) by (apply nth_error_Some; congruence).
    assert (x = w) by lia. subst x. clear Hx.
    assert (Hnth : nth n (words e) (-1)%Z = w).
    { rewrite Hr, app_nth1 by exact Hlen. now apply nth_error_nth. }
    unfold is_word_range, zlen. rewrite Hr at 1. rewrite app_length.
    split; [lia|]. split; [lia|]. intros i Hi.
    set (k := Z.to_nat i).
    assert (Hk : k < length (words e)) by (unfold k; lia).
    split.
    + intros Hkw. split.
      * assert (~ k < n); [|lia]. intros Hkn.
        assert (E : nth_error f k = Some w).
        { rewrite (nth_error_nth' f (-1)%Z) by lia. f_equal.
          rewrite <- Hkw, Hr. now rewrite app_nth1 by lia. }
        specialize (Hmin k w Hkn E). lia.
      * assert (~ length f <= k); [|lia]. intros Hfk.
        assert (In w r); [|specialize (Hw w H); lia].
        rewrite <- Hkw, Hr, app_nth2 by lia. apply nth_In.
        rewrite Hr, app_length in Hk. lia.
    + intros Hki.
      assert (Hkf : In (nth k (words e) (-1)%Z) f).
      { rewrite Hr, app_nth1 by lia. apply nth_In. lia. }
      apply filter_In in Hkf as [_ Hle].
      assert (nth n (words e) 0 <= nth k (words e) 0)%Z by (apply Hs; lia).
      rewrite !(nth_indep _ 0%Z (-1)%Z) in H by lia. lia.
  - exfalso. assert (In w f) by (apply filter_In; split; [exact Hin|lia]).
    specialize (F w H). lia.
Qed.

(** A trailing word-less token (as every special token at the end or every
    padding token) makes the answer one too long. *)
Lemma filter_app_last l w :
  (0 <= w)%Z -> filter (fun x => (x <=? w)%Z) (l ++ [(-1)%Z]) = filter (fun x => (x <=? w)%Z) l ++ [(-1)%Z].
Proof. intros H. rewrite filter_app. cbn. now replace (-1 <=? w)%Z with true by lia. Qed.

Lemma word2tokens_trailing_special e l w :
  words e = l ++ [(-1)%Z] -> (0 <= w)%Z ->
  forall s t, word2tokens e w = Some (s, t) ->
    ~ (exists x, In x l /\ (w < x)%Z) -> ~ is_word_range e w s t.
Proof.
  intros Hw Hw0 s t H Hall (H1 & H2 & H3).
  unfold word2tokens in H. rewrite Hw, filter_app_last in H by assumption.
  destruct (first_index _ _ 0) as [s'|]; [|discriminate]. injection H as <- <-.
  assert (Hf : filter (fun x => (x <=? w)%Z) l = l).
  { clear -Hall. induction l as [|x l IH]; [reflexivity|]. cbn.
    destruct (x <=? w)%Z eqn:E.
    - f_equal. apply IH. intros (y & Hy & Hlt). apply Hall. exists y. split; [now right|exact Hlt].
    - exfalso. apply Hall. exists x. split; [now left|lia]. }
  rewrite Hf in *.
  specialize (H3 (Z.of_nat (length l))).
  unfold zlen in *. rewrite Hw in *. rewrite app_length in *. cbn [length] in *.
  assert (nth (Z.to_nat (Z.of_nat (length l))) (l ++ [(-1)%Z]) (-1)%Z = (-1)%Z) as E.
  { rewrite Nat2Z.id, app_nth2 by lia. now rewrite Nat.sub_diag. }
  rewrite E in H3. destruct H3 as [_ H3]; [lia|].
  assert (-1 = w)%Z; [|lia]. apply H3. lia.
Qed.

(** ** Merge: sequence ranges *)
Lemma aget_aset {V} k (v : V) m k' :
  aget Z.eqb k' (aset Z.eqb k v m) = if (k' =? k)%Z then Some v else aget Z.eqb k' m.
Proof.
  induction m as [|[k0 v0] m IH]; cbn.
  - now destruct (k' =? k)%Z.
  - destruct (k =? k0)%Z eqn:E; cbn.
    + assert (k = k0) by lia. subst. now destruct (k' =? k0)%Z.
    + destruct (k' =? k0)%Z eqn:E1; [now replace (k' =? k)%Z with false by lia|exact IH].
Qed.

Lemma zrange_map_add d n s : map (Z.add d) (zrange n s) = zrange n (d + s).
Proof.
  revert s; induction n as [|n IH]; intros s; [reflexivity|]. cbn. f_equal. rewrite IH.
  f_equal. lia.
Qed.

Lemma interval_cons a n : 0 < n -> exists l, zrange n a = a :: l.
Proof. destruct n; [lia|]. cbn. eauto. Qed.

Lemma merge_ranges_intervals n t : forall m,
  (0 <= n)%Z -> (forall k r, In (k, r) t -> interval r) -> NoDup (map fst t) ->
  exists m', merge_ranges n (Some m) (Some t) = Ok (Some m') /\
    forall k, aget Z.eqb k m' =
      match aget Z.eqb k t with Some r => Some (map (Z.add n) r) | None => aget Z.eqb k m end.
Proof.
  intros m Hn. revert m. unfold merge_ranges.
  induction t as [|[k r] t IH]; intros m Ht Hnd; cbn [foldR].
  - exists m. split; [reflexivity|]. intros k. reflexivity.
  - destruct (Ht k r (or_introl eq_refl)) as (a & c & Ha & Hc & ->).
    destruct (interval_cons a c Hc) as (l & Hl).
    pose proof (zrange_last c a Hc) as HL. rewrite Hl in HL |- *.
    rewrite zindex_0. cbn [bind]. rewrite zindex_last, HL. cbn [bind].
    rewrite new_range_Ok by lia. cbn [bind].
    inversion Hnd as [|? ? Hk Hnd']; subst.
    destruct (IH (aset Z.eqb k (zrange (Z.to_nat (n + (a + Z.of_nat c - 1) + 1 - (n + a))) (n + a)) m))
      as (m' & Hm' & Hg); [intros; eapply Ht; right; eauto|assumption|].
    exists m'. split; [exact Hm'|]. intros k'. rewrite Hg. cbn [aget].
    destruct (k' =? k)%Z eqn:E.
    + assert (k' = k) by lia. subst k'.
      assert (aget Z.eqb k t = None) as ->.
      { clear -Hk. induction t as [|[k0 r0] t IH]; [reflexivity|]. cbn in *.
        destruct (k =? k0)%Z eqn:E; [exfalso; apply Hk; left; lia|]. apply IH. tauto. }
      rewrite aget_aset, Z.eqb_refl. f_equal.
      rewrite <- Hl, zrange_map_add. f_equal. lia.
    + now rewrite aget_aset, E.
Qed.

Lemma merge_with_ranges g e p r :
  merge_with g e p = Ok r ->
  (forall k l, In (k, l) (match seq_ranges p with Some m => m | None => [] end) -> interval l) ->
  NoDup (map fst (match seq_ranges p with Some m => m | None => [] end)) ->
  forall k, range_of r k =
    match range_of p k with Some l => Some (map (Z.add (enc_len e)) l) | None => range_of e k end.
Proof.
  rewrite merge_with_eq. intros H Hint Hnd k.
  apply bind_Ok_inv in H as (p1 & _ & H). apply bind_Ok_inv in H as (p2 & _ & H).
  unfold merge_flat in H. apply bind_Ok_inv in H as (rs & Hrs & H). injection H as <-.
  unfold range_of; cbn [seq_ranges].
  destruct (seq_ranges p) as [t|] eqn:Ep.
  - destruct (seq_ranges e) as [m|] eqn:Ee.
    + destruct (merge_ranges_intervals (enc_len e) t m) as (m' & Hm' & Hg); auto.
      { unfold enc_len, zlen; lia. }
      rewrite Hm' in Hrs. injection Hrs as <-. now rewrite Hg.
    + (* nil map: only an empty pair map does not panic *)
      destruct t as [|[k0 r0] t].
      * cbn in Hrs. now injection Hrs as <-.
      * exfalso. unfold merge_ranges in Hrs. cbn [foldR] in Hrs.
        destruct (zindex r0 0); cbn in Hrs; try discriminate.
        destruct (zindex r0 (zlen r0 - 1)); cbn in Hrs; try discriminate.
        destruct (new_range _ _); cbn in Hrs; discriminate.
  - cbn in Hrs. injection Hrs as <-. reflexivity.
Qed.

(** ** Left padding *)
Lemma pad_left_nonempty_panics e t a b c :
  ids e <> [] -> (zlen (ids e) < t)%Z -> overflowing e = [] -> pad e t a b c PLeft = Panic.
Proof.
  intros Hne Ht Ho. unfold pad. rewrite Ho. cbn [mapR bind].
  replace (t <=? zlen (ids e))%Z with false by lia.
  unfold pad1. cbn [set_overflowing ids].
  replace (t - zlen (ids e) <? 0)%Z with false by lia.
  unfold zlen in *. rewrite app_length, repeat_length.
  replace (_ <? _)%Z with true; [reflexivity|].
  destruct (ids e); [congruence|]. cbn [length] in *. lia.
Qed.

Lemma pad_left_never_mirror e t a b c :
  parallel e -> (zlen (ids e) < t)%Z -> overflowing e = [] ->
  pad e t a b c PLeft <> Ok (pad_left_by e (Z.to_nat (t - zlen (ids e))) a b c).
Proof.
  intros Hp Ht Ho. destruct (ids e) as [|x l] eqn:E.
  - unfold pad. rewrite Ho. cbn [mapR bind]. rewrite E.
    replace (t <=? zlen (@nil Z))%Z with false by (unfold zlen in *; cbn in *; lia).
    unfold pad1. cbn [set_overflowing ids type_ids]. rewrite E.
    replace (t - zlen (@nil Z) <? 0)%Z with false by lia.
    destruct (_ <? _)%Z; [discriminate|]. intros [= _ H _].
    unfold pad_left_by in H. apply (f_equal (@length Z)) in H.
    rewrite !app_length, !repeat_length in H. unfold zlen in *. cbn [length] in *.
    destruct Hp as (P1 & _). rewrite E in P1. cbn in P1. lia.
  - rewrite pad_left_nonempty_panics; [discriminate|congruence|congruence|assumption].
Qed.

(** ** Batch truncation *)
Lemma truncate_encodings_single e m s strat :
  parallel e -> (0 <= s < m)%Z -> strat <> OnlySecond ->
  exists e', truncate_encodings e None strat m s = Ok (e', None) /\
    enc_len e' = Z.min m (enc_len e) /\
    exists over, flat e' = flat (enc_prefix e (Z.to_nat m) over).
Proof.
  intros Hp Hs Hst. unfold truncate_encodings.
  replace (m =? 0)%Z with false by lia. rewrite Z.add_0_r.
  assert (H0 : (0 <= enc_len e)%Z) by (unfold enc_len, zlen; lia).
  destruct (enc_len e <? m)%Z eqn:E.
  - exists e. split; [reflexivity|]. split; [lia|]. exists [].
    destruct Hp as (P1 & P2 & P3 & P4 & P5 & P6). unfold enc_len, zlen in E.
    unfold flat, enc_prefix; cbn. rewrite !firstn_all2 by lia. reflexivity.
  - destruct (truncate_ignoring_error_ok e m s Hp Hs) as (e' & He' & Hl & Hf).
    destruct strat; [| |congruence].
    + rewrite longest_first_closed.
      replace (enc_len e - Z.max 0 (Z.of_nat (Z.to_nat (enc_len e - m)) - Z.max 0 (0 - enc_len e + 1)))%Z
        with m by lia.
      rewrite He'. cbn. eauto.
    + replace (enc_len e - m <? enc_len e)%Z with true by lia.
      replace (enc_len e - (enc_len e - m))%Z with m by lia. rewrite He'. cbn. eauto.
Qed.

Lemma truncate_encodings_only_first e p m s :
  parallel e -> (0 <= s)%Z -> (0 < m)%Z -> (s < m - enc_len p)%Z ->
  exists e', truncate_encodings e (Some p) OnlyFirst m s = Ok (e', Some p) /\
    enc_len e' = Z.min (enc_len e) (m - enc_len p).
Proof.
  intros Hp Hs Hm Hsm. unfold truncate_encodings.
  replace (m =? 0)%Z with false by lia.
  destruct (enc_len e + enc_len p <? m)%Z eqn:E.
  - exists e. split; [reflexivity|]. lia.
  - replace (enc_len e + enc_len p - m <? enc_len e)%Z with true by lia.
    replace (enc_len e - (enc_len e + enc_len p - m))%Z with (m - enc_len p)%Z by lia.
    destruct (truncate_ignoring_error_ok e (m - enc_len p) s Hp) as (e' & He' & Hl & _); [lia|].
    rewrite He'. cbn. exists e'. split; [reflexivity|]. lia.
Qed.

Lemma truncate_encodings_only_second e p m s :
  parallel p -> (0 <= s)%Z -> (0 < m)%Z -> (s < m - enc_len e)%Z ->
  exists p', truncate_encodings e (Some p) OnlySecond m s = Ok (e, Some p') /\
    enc_len p' = Z.min (enc_len p) (m - enc_len e).
Proof.
  intros Hp Hs Hm Hsm. unfold truncate_encodings.
  replace (m =? 0)%Z with false by lia.
  destruct (enc_len e + enc_len p <? m)%Z eqn:E.
  - exists p. split; [reflexivity|]. lia.
  - replace (enc_len e + enc_len p - m <? enc_len p)%Z with true by lia.
    replace (enc_len p - (enc_len e + enc_len p - m))%Z with (m - enc_len e)%Z by lia.
    destruct (truncate_ignoring_error_ok p (m - enc_len e) s Hp) as (e' & He' & Hl & _); [lia|].
    rewrite He'. cbn. exists e'. split; [reflexivity|]. lia.
Qed.

Lemma truncate_encodings_longest_first e p m s :
  parallel e -> parallel p -> (0 <= s)%Z -> (0 < m)%Z -> (m <= enc_len e + enc_len p)%Z ->
  let a := enc_len e in let b := enc_len p in
  let n1 := (a - Z.max 0 (a + b - m - Z.max 0 (b - a + 1)))%Z in
  let n2 := (m - a)%Z in
  exists e' p', truncate_encodings e (Some p) LongestFirst m s = Ok (e', Some p') /\
    enc_len e' = (if (s <? n1)%Z then n1 else a) /\
    enc_len p' = (if (s <? n2)%Z then Z.min b n2 else b).
Proof.
  intros Hpe Hpp Hs Hm Htot a b n1 n2. unfold truncate_encodings.
  replace (m =? 0)%Z with false by lia.
  replace (enc_len e + enc_len p <? m)%Z with false by lia.
  rewrite longest_first_closed.
  fold a b. rewrite Z2Nat.id by lia.
  replace (a - Z.max 0 (a + b - m - Z.max 0 (b - a + 1)))%Z with n1 by reflexivity.
  replace (b - (a + b - m))%Z with n2 by lia.
  assert (exists e', truncate_ignoring_error e n1 s = Ok e' /\
            enc_len e' = if (s <? n1)%Z then n1 else a) as (e' & -> & He').
  { destruct (s <? n1)%Z eqn:E.
    - destruct (truncate_ignoring_error_ok e n1 s Hpe) as (e' & He' & Hl & _); [lia|].
      exists e'. split; [exact He'|]. fold a in Hl. lia.
    - exists e. split; [apply truncate_ignoring_error_len; auto; lia|reflexivity]. }
  assert (exists p', truncate_ignoring_error p n2 s = Ok p' /\
            enc_len p' = if (s <? n2)%Z then Z.min b n2 else b) as (p' & -> & Hp').
  { destruct (s <? n2)%Z eqn:E.
    - destruct (truncate_ignoring_error_ok p n2 s Hpp) as (p' & Hp' & Hl & _); [lia|].
      exists p'. split; [exact Hp'|]. fold b in Hl. lia.
    - exists p. split; [apply truncate_ignoring_error_len; auto; lia|reflexivity]. }
  cbn. eauto.
Qed.

Lemma truncate_encodings_longest_first_bounded e p m s :
  parallel e -> parallel p -> (0 <= s)%Z -> (0 < m)%Z -> (s < m - enc_len e)%Z ->
  exists e' p', truncate_encodings e (Some p) LongestFirst m s = Ok (e', Some p') /\
    (enc_len e' + enc_len p' <= m)%Z.
Proof.
  intros Hpe Hpp Hs Hm Hsm.
  destruct (Z.lt_ge_cases (enc_len e + enc_len p) m) as [Hlt|Hge].
  - exists e, p. unfold truncate_encodings.
    replace (m =? 0)%Z with false by lia.
    replace (enc_len e + enc_len p <? m)%Z with true by lia. split; [reflexivity|lia].
  - destruct (truncate_encodings_longest_first e p m s Hpe Hpp Hs Hm Hge)
      as (e' & p' & H & He & Hp). exists e', p'. split; [exact H|].
    destruct (s <? _)%Z eqn:E1 in He; destruct (s <? m - enc_len e)%Z eqn:E2; lia.
Qed.

Lemma truncate_encodings_longest_first_exceeds e p m s :
  parallel e -> parallel p -> (0 <= s)%Z -> (0 < m)%Z ->
  (m <= enc_len e)%Z -> (m < enc_len p)%Z ->
  exists e' p', truncate_encodings e (Some p) LongestFirst m s = Ok (e', Some p') /\
    (m < enc_len e' + enc_len p')%Z.
Proof.
  intros Hpe Hpp Hs Hm Ha Hb.
  destruct (truncate_encodings_longest_first e p m s Hpe Hpp Hs Hm) as (e' & p' & H & He & Hp); [lia|].
  exists e', p'. split; [exact H|].
  replace (s <? m - enc_len e)%Z with false in Hp by lia.
  assert (0 <= enc_len e')%Z by (unfold enc_len, zlen; lia). lia.
Qed.

(** ** Batch padding *)
Lemma pad_encodings_right l st a b c n :
  l <> [] ->
  n = match st with BatchLongest => batch_longest l | Fixed n => n | OtherStrategy => 0%Z end ->
  pad_encodings l st PRight a b c =
    Ok (map (fun e => pad_right_by
          (set_overflowing e
             (map (fun o => pad_right_by o (Z.to_nat (n - zlen (ids o))) a b c) (overflowing e)))
          (Z.to_nat (n - zlen (ids e))) a b c) l).
Proof.
  intros Hne ->. unfold pad_encodings. destruct l as [|x l]; [congruence|].
  set (n := match st with _ => _ end).
  apply (mapR_all_Ok _ _ (x :: l)). intros e _. apply pad_right_spec.
Qed.

Lemma batch_longest_max l e : In e l -> (enc_len e <= batch_longest l)%Z.
Proof. intros H. exact (proj2 (fold_max_spec l 0) e H). Qed.

Lemma batch_longest_attained l : l <> [] -> exists e, In e l /\ enc_len e = batch_longest l.
Proof.
  intros Hne. destruct (fold_max_attained l 0) as [H|H]; [|exact H].
  destruct l as [|x l]; [congruence|]. exists x. split; [now left|].
  pose proof (batch_longest_max (x :: l) x (or_introl eq_refl)) as Hx.
  unfold batch_longest in *. rewrite H in Hx |- *. unfold enc_len, zlen in *. lia.
Qed.

Lemma pad_encodings_equal l st a b c n :
  l <> [] ->
  n = match st with BatchLongest => batch_longest l | Fixed n => n | OtherStrategy => 0%Z end ->
  (forall e, In e l -> enc_len e <= n)%Z ->
  exists l', pad_encodings l st PRight a b c = Ok l' /\
    Forall2 (fun e e' => enc_len e' = n /\
               flat e' = flat (pad_right_by e (Z.to_nat (n - enc_len e)) a b c)) l l'.
Proof.
  intros Hne Hn Hle. eexists. split; [apply (pad_encodings_right l st a b c n Hne Hn)|].
  clear Hne Hn. induction l as [|x l IH]; [constructor|]. cbn [map]. constructor.
  - split.
    + unfold enc_len. rewrite pad_right_by_len. cbn [set_overflowing ids].
      specialize (Hle x (or_introl eq_refl)). unfold enc_len in Hle. lia.
    + reflexivity.
  - apply IH. intros e He. apply Hle. now right.
Qed.

Lemma truncate_error_iff e m s e' b :
  truncate e m s = Ok (e', b) ->
  (b = true <-> (s >= m \/ m = 0)%Z) /\ (b = true -> e' = e).
Proof.
  unfold truncate. destruct ((m <=? s) || (m =? 0))%Z eqn:E.
  - intros [= <- <-]. split; [split; [lia|reflexivity]|reflexivity].
  - destruct (zlen (ids e) <=? m)%Z.
    + intros [= <- <-]. split; [split; [discriminate|lia]|discriminate].
    + intros H.
      repeat match type of H with
      | bind _ _ = _ => let x := fresh "x" in apply bind_Ok_inv in H as (x & _ & H)
      end.
      injection H as <- <-. split; [split; [discriminate|lia]|discriminate].
Qed.

Lemma merge_overflow_count g e p r :
  merge_with g e p = Ok r ->
  length (overflowing r)
  = length (overflowing e) * (1 + length (overflowing p)) + length (overflowing p).
Proof.
  intros H. apply merge_with_overflow in H. apply (f_equal (@length _)) in H.
  rewrite map_length in H. now rewrite H, over_spec_length.
Qed.

Lemma merge_nil_ranges_panic g e o p k l rest :
  overflowing e = o :: rest -> overflowing o = [] -> overflowing p = [] ->
  seq_ranges o = None -> seq_ranges p = Some [(k, l)] -> interval l ->
  merge_with g e p = Panic.
Proof.
  intros He Ho Hp Hso Hsp (a & n & Ha & Hn & ->).
  rewrite merge_with_eq, He. cbn [mapR].
  assert (merge_with g o p = Panic) as ->; [|reflexivity].
  rewrite merge_with_eq, Ho, Hp. cbn [mapR bind]. unfold merge_flat.
  rewrite Hso, Hsp. unfold merge_ranges. cbn [foldR].
  destruct (interval_cons a n Hn) as (t & Ht).
  pose proof (zrange_last n a Hn) as HL. rewrite Ht in *.
  rewrite zindex_0. cbn [bind]. rewrite zindex_last, HL. cbn [bind].
  rewrite new_range_Ok by (unfold enc_len, zlen; lia). reflexivity.
Qed.

Lemma pad_right_noop e t a b c :
  overflowing e = [] -> (t <= zlen (ids e))%Z -> pad e t a b c PRight = Ok e.
Proof.
  intros Ho Ht. rewrite pad_right_spec.
  replace (Z.to_nat (t - zlen (ids e))) with 0 by lia.
  rewrite pad_right_by_0, Ho. destruct e; cbn in *; now subst.
Qed.

Lemma pad_left_noop e t a b c :
  overflowing e = [] -> (t <= zlen (ids e))%Z -> pad e t a b c PLeft = Ok e.
Proof.
  intros Ho Ht. unfold pad. rewrite Ho. cbn [mapR bind].
  replace (t <=? zlen (ids e))%Z with true by lia.
  destruct e; cbn in *; now subst.
Qed.

Lemma pad_encodings_longest l a b c :
  l <> [] ->
  exists l' n,
    pad_encodings l BatchLongest PRight a b c = Ok l' /\
    (exists e, In e l /\ enc_len e = n) /\ (forall e, In e l -> (enc_len e <= n)%Z) /\
    Forall2 (fun e e' => enc_len e' = n /\
      flat e' = flat (pad_right_by e (Z.to_nat (n - enc_len e)) a b c)) l l'.
Proof.
  intros Hne.
  destruct (pad_encodings_equal l BatchLongest a b c (batch_longest l) Hne eq_refl)
    as (l' & Hl' & HF); [intros e; apply batch_longest_max|].
  exists l', (batch_longest l). split; [exact Hl'|].
  split; [now apply batch_longest_attained|]. split; [|exact HF].
  intros e; apply batch_longest_max.
Qed.

Lemma pad_encodings_fixed l n a b c :
  l <> [] -> (forall e, In e l -> (enc_len e <= n)%Z) ->
  exists l',
    pad_encodings l (Fixed n) PRight a b c = Ok l' /\
    Forall2 (fun e e' => enc_len e' = n /\
      flat e' = flat (pad_right_by e (Z.to_nat (n - enc_len e)) a b c)) l l'.
Proof. intros Hne Hle. exact (pad_encodings_equal l (Fixed n) a b c n Hne eq_refl Hle). Qed.

Lemma char2token_spec e pos :
  match char2token e pos with
  | Some t => exists n o, t = Z.of_nat n /\ nth_error (offsets e) n = Some o /\
      (fst o <= pos < snd o)%Z /\
      forall n' o', n' < n -> nth_error (offsets e) n' = Some o' -> ~ (fst o' <= pos < snd o')%Z
  | None => forall o, In o (offsets e) -> ~ (fst o <= pos < snd o)%Z
  end.
Proof. exact (char2token_loop_spec (offsets e) 0 pos). Qed.

Lemma token2word_spec e t :
  token2word e t = if (t <? 0)%Z then None else nth_error (words e) (Z.to_nat t).
Proof. unfold token2word. rewrite token2word_loop_spec. now rewrite Z.sub_0_r. Qed.

Lemma token2chars_spec e t :
  t <> zlen (offsets e) ->
  token2chars e t = Ok (if (t <? 0)%Z then None else nth_error (offsets e) (Z.to_nat t)).
Proof.
  intros H. unfold token2chars. destruct (t <? 0)%Z eqn:E; [reflexivity|]. cbn [orb].
  destruct (zlen (offsets e) <? t)%Z eqn:E1.
  - f_equal. symmetry. apply nth_error_None. unfold zlen in *. lia.
  - unfold zindex. replace (0 <=? t)%Z with true by lia.
    destruct (nth_error (offsets e) (Z.to_nat t)) eqn:E2; [reflexivity|].
    apply nth_error_None in E2. unfold zlen in *. lia.
Qed.

Lemma token2chars_panics e : token2chars e (zlen (offsets e)) = Panic.
Proof.
  unfold token2chars. unfold zlen.
  replace ((Z.of_nat (length (offsets e)) <? 0) || (Z.of_nat (length (offsets e)) <? Z.of_nat (length (offsets e))))%Z
    with false by lia.
  unfold zindex. replace (0 <=? Z.of_nat (length (offsets e)))%Z with true by lia.
  rewrite Nat2Z.id. now rewrite (proj2 (nth_error_None (offsets e) (length (offsets e)))).
Qed.

Lemma char2word_spec e pos w :
  char2word e pos = Some w <->
  exists n o, nth_error (offsets e) n = Some o /\ (fst o <= pos < snd o)%Z /\
    (forall n' o', n' < n -> nth_error (offsets e) n' = Some o' -> ~ (fst o' <= pos < snd o')%Z) /\
    nth_error (words e) n = Some w.
Proof.
  unfold char2word. pose proof (char2token_spec e pos) as H.
  destruct (char2token e pos) as [t|].
  - destruct H as (n & o & -> & Hn & Ho & Hmin). rewrite token2word_spec.
    replace (Z.of_nat n <? 0)%Z with false by lia. rewrite Nat2Z.id. split.
    + intros Hw. exists n, o. auto.
    + intros (m & o' & Hm & Ho' & Hmin' & Hw).
      assert (m = n); [|subst; exact Hw].
      destruct (Nat.lt_total m n) as [L|[L|L]]; [|exact L|].
      * exfalso. exact (Hmin m o' L Hm Ho').
      * exfalso. exact (Hmin' n o L Hn Ho).
  - split; [discriminate|]. intros (n & o & Hn & Ho & _).
    exfalso. exact (H o (nth_error_In _ _ Hn) Ho).
Qed.

Lemma zindex_nth_error {A} (l : list A) i x :
  (0 <= i)%Z -> nth_error l (Z.to_nat i) = Some x -> zindex l i = Ok x.
Proof. intros H E. unfold zindex. replace (0 <=? i)%Z with true by lia. now rewrite E. Qed.

Lemma word2chars_sorted e w :
  nondecreasing (words e) -> length (offsets e) = length (words e) -> In w (words e) ->
  exists s t os oe, is_word_range e w s t /\
    nth_error (offsets e) (Z.to_nat s) = Some os /\
    nth_error (offsets e) (Z.to_nat (t - 1)) = Some oe /\
    word2chars e w = Ok (Some (fst os, snd oe)).
Proof.
  intros Hs HL Hin. destruct (word2tokens_sorted e w Hs Hin) as (s & t & E & R).
  pose proof R as ((R1 & R2) & R3 & _). unfold zlen in R3.
  assert (exists os, nth_error (offsets e) (Z.to_nat s) = Some os) as [os Eos].
  { destruct (nth_error (offsets e) (Z.to_nat s)) eqn:X; [eauto|].
    apply nth_error_None in X. lia. }
  assert (exists oe, nth_error (offsets e) (Z.to_nat (t - 1)) = Some oe) as [oe Eoe].
  { destruct (nth_error (offsets e) (Z.to_nat (t - 1))) eqn:X; [eauto|].
    apply nth_error_None in X. lia. }
  exists s, t, os, oe. split; [exact R|]. split; [exact Eos|]. split; [exact Eoe|].
  unfold word2chars. rewrite E. replace (t =? 0)%Z with false by lia.
  rewrite (zindex_nth_error _ s os), (zindex_nth_error _ (t - 1)%Z oe); [reflexivity|lia|exact Eoe|lia|exact Eos].
Qed.

Lemma range_contains_In r x : range_contains r x = true <-> In x r.
Proof.
  unfold range_contains. rewrite existsb_exists. split.
  - intros (y & Hy & E). apply Z.eqb_eq in E. now subst.
  - intros H. exists x. split; [exact H|apply Z.eqb_refl].
Qed.

Lemma token2sequence_spec e m tok k :
  seq_ranges e = Some m -> m <> [] ->
  (forall k' r i, In (k', r) m -> In i r -> (i < enc_len e)%Z) ->
  (forall k1 r1 k2 r2 i, In (k1, r1) m -> In (k2, r2) m -> In i r1 -> In i r2 -> k1 = k2) ->
  (token2sequence e tok = Some k <-> exists r, In (k, r) m /\ In tok r).
Proof.
  intros Em Hne Hb Hd. unfold token2sequence. rewrite Em. split.
  - destruct (enc_len e <? tok)%Z; [discriminate|]. destruct m as [|kr m']; [congruence|].
    destruct (find _ (kr :: m')) as [[k' r]|] eqn:F; [|discriminate].
    intros [= <-]. apply find_some in F as [F1 F2]. cbn [snd] in F2.
    apply range_contains_In in F2. eauto.
  - intros (r & Hin & Ht). pose proof (Hb _ _ _ Hin Ht).
    replace (enc_len e <? tok)%Z with false by lia.
    destruct m as [|kr m']; [congruence|].
    destruct (find _ (kr :: m')) as [[k' r']|] eqn:F.
    + apply find_some in F as [F1 F2]. cbn [snd] in F2. apply range_contains_In in F2.
      f_equal. exact (Hd _ _ _ _ _ F1 Hin F2 Ht).
    + pose proof (find_none _ _ F _ Hin) as X. cbn [snd] in X.
      apply range_contains_In in Ht. congruence.
Qed.

Lemma token2sequence_no_ranges e tok :
  seq_ranges e = None \/ seq_ranges e = Some [] -> (tok <= enc_len e)%Z ->
  token2sequence e tok = Some 0%Z.
Proof.
  intros H L. unfold token2sequence. replace (enc_len e <? tok)%Z with false by lia.
  destruct H as [-> | ->]; reflexivity.
Qed.
