(** C62, C63: the slice helpers of util/slice; C64: the list helpers and iterators of util. *)
From Coq Require Import Permutation Sorted.
From Verif Require Import Base BaseProofs SliceModel SliceProofs SliceOpsModel SliceOpsSpec SliceOpsProofs.
Open Scope nat_scope.

(** ** C62 *)

(** Cutting out [i..j) leaves the elements before [i] and those from [j] on. *)
Theorem C62_cut_partial : forall A (zero : A) grow low (M : mem) a i j,
  (low <= 0)%Z -> valid M a -> (0 <= i <= j)%Z -> (j <= Z.of_nat (slen a))%Z ->
  exists M' r, cut zero grow low M a i j = Ok (M', r) /\ valid M' r /\
    sread M' r = firstn (Z.to_nat i) (sread M a) ++ skipn (Z.to_nat j) (sread M a).
Proof.
  intros A zero grow low M a i j Hl V H1 H2.
  destruct (cut_ok zero grow low M a i j V H1 H2 Hl) as (M' & r & R1 & R2 & R3 & _). eauto.
Qed.
(** A negative start is out of range, and CutInt does not reject it. *)
Theorem C62_cut_refuted : forall A (zero : A) grow (M : mem) a j,
  (-1 <= j <= Z.of_nat (slen a))%Z -> cut zero grow (-1) M a (-1) j = Panic.
Proof. exact @cut_negative. Qed.

(** Deleting element [i]. *)
Theorem C62_delete_partial : forall A (zero : A) grow (M : mem) a i,
  valid M a -> (0 <= i < Z.of_nat (slen a))%Z ->
  exists M' r, delete zero grow M a i = Ok (M', r) /\ valid M' r /\
    sread M' r = firstn (Z.to_nat i) (sread M a) ++ skipn (S (Z.to_nat i)) (sread M a).
Proof.
  intros A zero grow M a i V H. destruct (delete_ok zero grow M a i V H) as (M' & r & R1 & R2 & R3 & _). eauto.
Qed.
(** The index just behind the last element is not rejected: deleting there panics. *)
Theorem C62_delete_refuted : forall A (zero : A) grow (M : mem) a, delete zero grow M a (Z.of_nat (slen a)) = Panic.
Proof. exact @delete_end. Qed.

(** Inserting one element, or the elements of a slice that lives in another array. *)
Theorem C62_insert : forall A (zero : A) grow (M : mem) a x i,
  valid M a -> (0 <= i <= Z.of_nat (slen a))%Z ->
  exists M' r, insert zero grow M a x i = Ok (M', r) /\ valid M' r /\
    sread M' r = firstn (Z.to_nat i) (sread M a) ++ x :: skipn (Z.to_nat i) (sread M a).
Proof.
  intros A zero grow M a x i V H. destruct (insert_ok zero grow M a x i V H) as (M' & r & R1 & R2 & R3 & _). eauto.
Qed.
Theorem C62_insert_vec_partial : forall A (zero : A) grow (M : mem) a b i,
  valid M a -> valid M b -> sarr a <> sarr b -> (0 <= i <= Z.of_nat (slen a))%Z ->
  exists M' r, insert_vec zero grow M a b i = Ok (M', r) /\ valid M' r /\
    sread M' r = firstn (Z.to_nat i) (sread M a) ++ sread M b ++ skipn (Z.to_nat i) (sread M a).
Proof. exact @insert_vec_ok. Qed.
(** Inserting the first element of a slice again, as the third: the second is lost. *)
Theorem C62_insert_vec_refuted : forall A (zero : A) grow (M : mem) a x y z l,
  valid M a -> sread M a = x :: y :: z :: l -> y <> z ->
  exists M' r, insert_vec zero grow M a (upto a 1) 2 = Ok (M', r) /\
    sread M' r <> firstn 2 (sread M a) ++ sread M (upto a 1) ++ skipn 2 (sread M a).
Proof.
  intros A zero grow M a x y z l V E D. destruct (insert_vec_alias zero grow M a x y z l V E) as (M' & r & R1 & R2).
  exists M', r. split; [exact R1|]. rewrite R2, E. intros X. injection X as X. congruence.
Qed.

(** An index out of range is an error. *)
Theorem C62_out_of_range : forall A (zero : A) grow (M : mem) a i x b j,
  (i < 0 \/ Z.of_nat (slen a) < i)%Z ->
  insert zero grow M a x i = Err /\ insert_vec zero grow M a b i = Err /\ delete zero grow M a i = Err /\
  cut zero grow 0 M a i j = Err /\ cut zero grow 0 M a j i = Err.
Proof.
  intros A zero grow M a i x b j H. unfold insert, insert_vec, delete, cut.
  replace ((i <? 0) || (Z.of_nat (slen a) <? i))%Z with true by lia.
  replace ((i <? 0) || (Z.of_nat (slen a) <? i) || (j <? 0) || (Z.of_nat (slen a) <? j) || (j <? i))%Z with true by lia.
  replace ((j <? 0) || (Z.of_nat (slen a) <? j) || (i <? 0) || (Z.of_nat (slen a) <? i) || (i <? j))%Z with true by lia. auto.
Qed.

(** Extending by [n] zeros; making room for the positions [i..j). *)
Theorem C62_extend : forall A (zero : A) grow (M : mem) a n,
  valid M a -> (0 < n)%Z ->
  exists M' r, extend zero grow M a n = Ok (M', r) /\ valid M' r /\ sread M' r = sread M a ++ repeat zero (Z.to_nat n).
Proof.
  intros A zero grow M a n V H. destruct (extend_ok zero grow M a n V H) as (M' & r & R1 & R2 & R3 & _). eauto.
Qed.
Theorem C62_expand_partial : forall A (zero : A) grow (M : mem) a i j,
  valid M a -> (0 <= i <= j)%Z -> (j <= Z.of_nat (slen a))%Z ->
  exists M' r, expand zero grow M a i j = Ok (M', r) /\ valid M' r /\
    sread M' r = firstn (Z.to_nat i) (sread M a) ++ repeat zero (Z.to_nat j) ++ skipn (Z.to_nat i) (sread M a).
Proof.
  intros A zero grow M a i j V H1 H2. destruct (expand_ok zero grow M a i j V H1 H2) as (M' & r & R1 & R2 & R3 & _). eauto.
Qed.
(** Room is made for [j] elements, not for [j - i]. *)
Theorem C62_expand_refuted : forall A (zero : A) grow (M : mem) a i j,
  valid M a -> (0 < i <= j)%Z -> (j <= Z.of_nat (slen a))%Z ->
  exists M' r, expand zero grow M a i j = Ok (M', r) /\ (Z.of_nat (slen r) > Z.of_nat (slen a) + (j - i))%Z.
Proof.
  intros A zero grow M a i j V H1 H2. destruct (expand_ok zero grow M a i j V ltac:(lia) H2) as (M' & r & R1 & R2 & R3 & _).
  exists M', r. split; [exact R1|]. pose proof (f_equal (@length A) R3) as L.
  rewrite sread_len, !app_length, repeat_length, firstn_length, skipn_length, sread_len in L by assumption. lia.
Qed.

(** Adding and taking elements at both ends. *)
Theorem C62_push : forall A (zero : A) grow (M : mem) a x, valid M a ->
  (let r := push zero grow M a x in valid (fst r) (snd r) /\ sread (fst r) (snd r) = sread M a ++ [x]) /\
  (let r := push_front zero grow M a x in valid (fst r) (snd r) /\ sread (fst r) (snd r) = x :: sread M a).
Proof.
  intros A zero grow M a x V. split; cbn zeta.
  - destruct (push_ok zero grow M a x V) as (R1 & R2 & _). auto.
  - destruct (push_front_ok zero grow M a x V) as (R1 & R2 & _). auto.
Qed.
Theorem C62_pop_partial : forall A (zero : A) (M : mem) a l x, valid M a ->
  (sread M a = l ++ [x] -> exists r, pop zero M a = Ok (x, r) /\ valid M r /\ sread M r = l) /\
  (sread M a = x :: l -> exists r, pop_front zero M a = Ok (x, r) /\ valid M r /\ sread M r = l).
Proof. intros A zero M a l x V. split; intros E; [now apply (pop_ok zero (fun _ => 0%nat))|now apply (pop_front_ok zero (fun _ => 0%nat))]. Qed.
(** Taking an element from an empty slice panics. *)
Theorem C62_pop_refuted : forall A (zero : A) (M : mem) a, slen a = 0 -> pop zero M a = Panic /\ pop_front zero M a = Panic.
Proof. intros A zero M a H. unfold pop, pop_front. now rewrite H. Qed.

(** Both filters keep the elements that pass, in order. *)
Theorem C62_filter : forall A (zero : A) f (M : mem) a, valid M a ->
  (let r := filter_in_place zero f M a in valid (fst r) (snd r) /\ sread (fst r) (snd r) = filter f (sread M a)) /\
  (let r := filter_no_allocate zero f M a in
   valid (fst r) (snd r) /\ sread (fst r) (snd r) = filter f (sread M a) /\
   sread (fst r) a = filter f (sread M a) ++ repeat zero (slen a - length (filter f (sread M a)))).
Proof.
  intros A zero f M a V. split; cbn zeta.
  - destruct (filter_in_place_ok zero (fun _ => 0%nat) f M a V) as (R1 & R2 & _). auto.
  - destruct (filter_no_allocate_ok zero (fun _ => 0%nat) f M a V) as (R1 & R2 & _ & R4). auto.
Qed.

(** The three reversals reverse; shuffling permutes, whatever the random numbers. *)
Theorem C62_reverse : forall A (zero : A) (M : mem) a, valid M a ->
  (let r := reverse zero M a in valid (fst r) (snd r) /\ sread (fst r) (snd r) = rev (sread M a)) /\
  (let r := reverse_lr zero M a in valid (fst r) (snd r) /\ sread (fst r) (snd r) = rev (sread M a)) /\
  (let r := reverse_new zero M a in valid (fst r) (snd r) /\ sread (fst r) (snd r) = rev (sread M a)).
Proof.
  intros A zero M a V. split; [|split]; cbn zeta.
  - destruct (reverse_ok zero (fun _ => 0%nat) M a V) as (R1 & R2 & R3 & _). rewrite R2. auto.
  - destruct (reverse_lr_ok zero (fun _ => 0%nat) M a V) as (R1 & R2 & R3 & _). rewrite R2. auto.
  - destruct (reverse_new_ok zero (fun _ => 0%nat) M a V) as (R1 & R2 & _). auto.
Qed.
Theorem C62_shuffle : forall A (zero : A) rnd (M : mem) a, valid M a -> (forall i, 0 < i -> rnd i < i) ->
  let r := shuffle_all zero rnd M a in valid (fst r) (snd r) /\ Permutation (sread M a) (sread (fst r) (snd r)).
Proof.
  intros A zero rnd M a V R. unfold shuffle_all. cbn [fst snd].
  destruct (shuffle_ok zero (fun _ => 0%nat) rnd (slen a - 1) M a V ltac:(lia) R) as (S1 & _ & S3). auto.
Qed.

(** Batches: the parts in order make up the slice, all but the last have the given size, and
    the last is not longer (nor empty, for a slice that is not). *)
Theorem C62_batch_partial : forall A (M : mem (A:=A)) a size, valid M a -> (0 < size)%Z ->
  exists front back, batch a size = Ok (front ++ [back]) /\
    concat (map (sread M) (front ++ [back])) = sread M a /\
    Forall (fun b => Z.of_nat (length (sread M b)) = size) front /\
    (Z.of_nat (length (sread M back)) <= size)%Z /\ (sread M a <> [] -> sread M back <> []).
Proof.
  intros A M a size V H. unfold batch. replace (size <? 0)%Z with false by lia. replace (size =? 0)%Z with false by lia.
  destruct (batch_loop_ok (fun _ => 0%nat) M (Z.to_nat size) ltac:(lia) (slen a) a V (le_n _)) as (front & back & R1 & R2 & R3 & R4 & R5 & R6).
  exists front, back. rewrite R1. split; [reflexivity|]. split; [exact R2|]. apply Forall_app in R3. destruct R3 as [R3 Rb]. apply Forall_inv in Rb.
  rewrite (sread_len M back Rb). split; [|split; [lia|]].
  - rewrite Forall_forall in *. intros b Hb. rewrite sread_len by auto. destruct (R4 b Hb). lia.
  - intros Ne E. pose proof (sread_len M back Rb) as L. rewrite E in L. cbn in L. assert (0 < slen a); [|lia].
    rewrite <- (sread_len M a V). destruct (sread M a); [congruence|cbn; lia].
Qed.
(** A size of zero is not rejected but divides by zero; an empty slice has one (empty) batch. *)
Theorem C62_batch_refuted : forall a size, batch a 0 = Panic /\ (slen a = 0 -> (0 < size)%Z -> batch a size = Ok [a]).
Proof.
  intros a size. split; [reflexivity|]. intros E H. unfold batch. replace (size <? 0)%Z with false by lia.
  replace (size =? 0)%Z with false by lia. now rewrite E.
Qed.

(** Removing duplicates: the same elements, each once, in order. *)
Theorem C62_dedup_partial : forall A (zero : A) eqb (le : A -> A -> Prop) sort (M : mem) a,
  (forall x y, eqb x y = true <-> x = y) -> (forall x y, le x y -> le y x -> x = y) ->
  (forall l, Permutation l (sort l) /\ StronglySorted le (sort l)) ->
  valid M a -> sread M a <> [] ->
  exists M' r, dedup zero eqb sort M a = Ok (M', r) /\ valid M' r /\ NoDup (sread M' r) /\ StronglySorted le (sread M' r) /\
    (forall x, In x (sread M' r) <-> In x (sread M a)).
Proof.
  intros A zero eqb le sort M a Heq anti Hs V Ne. assert (Hn : slen a <> 0).
  { rewrite <- (sread_len M a V). destruct (sread M a); [congruence|cbn; lia]. }
  destruct (dedup_ok zero (fun _ => 0%nat) eqb Heq le anti sort Hs M a V Hn) as (M' & r & R1 & R2 & R3 & R4 & R5 & _). exists M', r. auto.
Qed.
(** The empty slice: a panic, or one element that was not in the slice. *)
Theorem C62_dedup_refuted : forall A (zero : A) eqb sort (M : mem) a,
  sort [] = [] -> valid M a -> slen a = 0 ->
  (scap a = 0 -> dedup zero eqb sort M a = Panic) /\
  (scap a <> 0 -> exists r, dedup zero eqb sort M a = Ok (M, r) /\ length (sread M r) = 1).
Proof.
  intros A zero eqb sort M a Hs V H. rewrite (dedup_empty zero eqb sort Hs M a V H). split; intros C.
  - now rewrite C.
  - replace (scap a =? 0) with false by lia. exists (upto a 1). split; [reflexivity|].
    apply (sread_len M). unfold upto. apply (valid_reslice (fun _ => 0%nat)); auto; lia.
Qed.

(** Non-vacuity: the slice 1 2 3 of an array with room for five, and another array. *)
Definition ex_mem : mem := [[9; 1; 2; 3; 7; 8]; [5; 6]].
Definition ex_a : slice := mkS 0 1 3 5.
Definition ex_b : slice := mkS 1 0 2 2.
Example ex_valid : valid ex_mem ex_a /\ valid ex_mem ex_b /\ sread ex_mem ex_a = [1; 2; 3] /\ sread ex_mem ex_b = [5; 6].
Proof. unfold valid, ex_mem, ex_a, ex_b. cbn. repeat split; lia. Qed.
Definition shown (r : res (mem * slice)) : res (list nat) := do (M, s) <- r; Ok (sread M s).
Example ex_ops : let g := fun _ => 3 in
  shown (cut 0 g 0 ex_mem ex_a 1 2) = Ok [1; 3] /\ shown (delete 0 g ex_mem ex_a 0) = Ok [2; 3] /\
  shown (insert 0 g ex_mem ex_a 4 1) = Ok [1; 4; 2; 3] /\ shown (insert_vec 0 g ex_mem ex_a ex_b 1) = Ok [1; 5; 6; 2; 3] /\
  shown (insert_vec 0 g ex_mem ex_a (upto ex_a 1) 2) = Ok [1; 3; 1; 3] /\
  shown (expand 0 g ex_mem ex_a 1 2) = Ok [1; 0; 0; 2; 3] /\ shown (extend 0 g ex_mem ex_a 2) = Ok [1; 2; 3; 0; 0] /\
  shown (Ok (push_front 0 g ex_mem ex_a 4)) = Ok [4; 1; 2; 3] /\ shown (Ok (reverse 0 ex_mem ex_a)) = Ok [3; 2; 1] /\
  shown (Ok (filter_no_allocate 0 Nat.odd ex_mem ex_a)) = Ok [1; 3] /\
  (do bs <- batch ex_a 2; Ok (map (sread ex_mem) bs)) = Ok [[1; 2]; [3]] /\
  shown (dedup 0 Nat.eqb (fun l => l) [[1; 1; 2; 2; 2; 5]] (mkS 0 0 6 6)) = Ok [1; 2; 5] /\
  shown (dedup 0 Nat.eqb (fun l => l) ex_mem (mkS 0 1 0 5)) = Ok [1].
Proof. vm_compute. repeat split; reflexivity. Qed.

(** ** C63 *)

(** Helpers that promise a new slice do not change any slice that existed before. *)
Theorem C63_fresh : forall A (zero : A) grow (M : mem) a b x, valid M a -> valid M b ->
  keeps M (fst (copy zero grow M a)) /\ keeps M (fst (push_front zero grow M a x)) /\
  keeps M (fst (reverse_new zero M a)) /\ keeps M (fst (merge zero grow M a b)).
Proof.
  intros A zero grow M a b x Va Vb. split; [now apply copy_ok|]. split; [now apply push_front_ok|].
  split; [now apply (reverse_new_ok zero grow)|now apply merge_ok].
Qed.
(** What they return shows the right elements and shares no array with an older slice. *)
Theorem C63_copy : forall A (zero : A) grow (M : mem) a, valid M a -> sread M a <> [] ->
  let r := copy zero grow M a in
  sread (fst r) (snd r) = sread M a /\ (forall t, valid M t -> sarr t <> sarr (snd r)).
Proof.
  intros A zero grow M a V Ne r. destruct (copy_ok zero grow M a V) as (_ & R2 & _ & R4). split; [exact R2|].
  intros t (T1 & _). fold r in R4. rewrite R4; [lia|]. rewrite <- (sread_len M a V). destruct (sread M a); [congruence|cbn; lia].
Qed.
Theorem C63_merge : forall A (zero : A) grow (M : mem) a b, valid M a -> valid M b ->
  let r := merge zero grow M a b in
  sread (fst r) (snd r) = sread M a ++ sread M b /\ (forall t, valid M t -> sarr t <> sarr (snd r)).
Proof.
  intros A zero grow M a b Va Vb r. destruct (merge_ok zero grow M a b Va Vb) as (_ & R2 & _). split; [exact R2|].
  intros t (T1 & _). unfold r, merge, SliceModel.append. cbn [slen scap].
  destruct (_ <=? _); cbn [snd sarr]; [lia|]. rewrite app_length. lia.
Qed.

(** The others touch no array but that of their argument. *)
Theorem C63_elsewhere : forall A (zero : A) grow (M : mem) a i j x n f rnd M' r,
  valid M a -> (0 <= i <= j)%Z -> (j <= Z.of_nat (slen a))%Z -> (forall k, 0 < k -> rnd k < k) ->
  Ok (M', r) = cut zero grow 0 M a i j \/ (i < j)%Z /\ Ok (M', r) = delete zero grow M a i \/
  Ok (M', r) = insert zero grow M a x i \/ Ok (M', r) = expand zero grow M a i j \/
  (0 < n)%Z /\ Ok (M', r) = extend zero grow M a n \/
  (M', r) = push zero grow M a x \/ (M', r) = filter_in_place zero f M a \/ (M', r) = filter_no_allocate zero f M a \/
  (M', r) = reverse zero M a \/ (M', r) = reverse_lr zero M a \/ (M', r) = shuffle_all zero rnd M a ->
  frame (sarr a) M M'.
Proof.
  intros A zero grow M a i j x n f rnd M' r V H1 H2 Hr H.
  destruct H as [H|[[Hi H]|[H|[H|[[Hn H]|[H|[H|[H|[H|[H|H]]]]]]]]]].
  - destruct (cut_ok zero grow 0 M a i j V H1 H2 (Z.le_refl 0)) as (M2 & r2 & R1 & _ & _ & R4). rewrite R1 in H. injection H as -> ->. exact R4.
  - destruct (delete_ok zero grow M a i V ltac:(lia)) as (M2 & r2 & R1 & _ & _ & R4). rewrite R1 in H. injection H as -> ->. exact R4.
  - destruct (insert_ok zero grow M a x i V ltac:(lia)) as (M2 & r2 & R1 & _ & _ & R4). rewrite R1 in H. injection H as -> ->. exact R4.
  - destruct (expand_ok zero grow M a i j V H1 H2) as (M2 & r2 & R1 & _ & _ & R4). rewrite R1 in H. injection H as -> ->. exact R4.
  - destruct (extend_ok zero grow M a n V Hn) as (M2 & r2 & R1 & _ & _ & R4). rewrite R1 in H. injection H as -> ->. exact R4.
  - destruct (push_ok zero grow M a x V) as (_ & _ & R). rewrite <- H in R. exact R.
  - destruct (filter_in_place_ok zero (fun _ => 0%nat) f M a V) as (_ & _ & R). rewrite <- H in R. exact R.
  - destruct (filter_no_allocate_ok zero (fun _ => 0%nat) f M a V) as (_ & _ & R & _). rewrite <- H in R. exact R.
  - destruct (reverse_ok zero (fun _ => 0%nat) M a V) as (_ & _ & _ & R). rewrite <- H in R. exact R.
  - destruct (reverse_lr_ok zero (fun _ => 0%nat) M a V) as (_ & _ & _ & R). rewrite <- H in R. exact R.
  - destruct (shuffle_ok zero (fun _ => 0%nat) rnd (slen a - 1) M a V ltac:(lia) Hr) as (_ & R & _). unfold shuffle_all in H. injection H as -> _. exact R.
Qed.

(** Appending to a batch other than the last one leaves every slice as it was, the next
    batch included. *)
Theorem C63_batch : forall A (zero : A) grow (M : mem) a size front back b x xs, valid M a -> (0 < size)%Z ->
  batch a size = Ok (front ++ [back]) -> In b front -> keeps M (fst (SliceModel.append zero grow M b (x :: xs))).
Proof.
  intros A zero grow M a size front back b x xs V H E Hb. unfold batch in E.
  replace (size <? 0)%Z with false in E by lia. replace (size =? 0)%Z with false in E by lia. injection E as E.
  destruct (batch_loop_ok (fun _ => 0%nat) M (Z.to_nat size) ltac:(lia) (slen a) a V (le_n _)) as (front' & back' & R1 & _ & R3 & R4 & _).
  rewrite R1 in E. apply app_inj_tail in E. destruct E as [<- <-]. rewrite Forall_forall in R4. destruct (R4 b Hb) as [L C].
  apply Forall_app in R3. destruct R3 as [R3 _]. rewrite Forall_forall in R3.
  destruct (append_read zero grow M b (x :: xs) (R3 b Hb)) as (_ & _ & _ & K & _). apply K. cbn [length]. lia.
Qed.

(** Insert leaves its argument alone when it has no spare capacity ... *)
Theorem C63_insert_partial : forall A (zero : A) grow (M : mem) a x i,
  valid M a -> (0 <= i <= Z.of_nat (slen a))%Z -> scap a = slen a ->
  exists M' r, insert zero grow M a x i = Ok (M', r) /\ keeps M M'.
Proof. exact @insert_full. Qed.
(** ... and overwrites it when there is. *)
Theorem C63_insert_refuted : forall A (zero : A) grow (M : mem) a p y q x,
  valid M a -> slen a < scap a -> sread M a = p ++ y :: q -> x <> y ->
  exists M' r, insert zero grow M a x (Z.of_nat (length p)) = Ok (M', r) /\ sread M' a <> sread M a.
Proof.
  intros A zero grow M a p y q x V Hc E D. pose proof (sread_len M a V) as L. rewrite E, app_length in L. cbn [length] in L.
  destruct (insert_argument zero grow M a x (Z.of_nat (length p)) V ltac:(lia) Hc) as (M' & r & R1 & R2).
  exists M', r. split; [exact R1|]. rewrite R2, E, Nat2Z.id. intros X.
  assert (Y : nth (length p) (firstn (slen a) (firstn (length p) (p ++ y :: q) ++ x :: skipn (length p) (p ++ y :: q))) x = nth (length p) (p ++ y :: q) x)
    by now rewrite X.
  rewrite (nth_firstn_lt (fun _ => 0%nat)) in Y by lia. rewrite firstn_app, firstn_all, Nat.sub_diag in Y. cbn [firstn] in Y. rewrite app_nil_r in Y.
  rewrite !app_nth2, Nat.sub_diag in Y by lia. cbn in Y. congruence.
Qed.
(** Delete overwrites its argument, which then ends with its last element twice. *)
Theorem C63_delete_refuted : forall A (zero : A) grow (M : mem) a p x q y,
  valid M a -> sread M a = p ++ x :: q ++ [y] ->
  exists M' r, delete zero grow M a (Z.of_nat (length p)) = Ok (M', r) /\ sread M' a = p ++ q ++ [y; y].
Proof. intros A zero grow M a p x q y V E. now apply (delete_argument zero grow M a (length p) p x q y). Qed.

Example ex_effects : let g := fun _ => 3 in
  (do (M, _) <- insert 0 g ex_mem ex_a 4 1; Ok (sread M ex_a)) = Ok [1; 4; 2] /\
  (do (M, _) <- delete 0 g ex_mem ex_a 0; Ok (sread M ex_a)) = Ok [2; 3; 3] /\
  (let (M, r) := merge 0 g ex_mem ex_a ex_b in (sread M r, sread M ex_a)) = ([1; 2; 3; 5; 6], [1; 2; 3]).
Proof. vm_compute. repeat split; reflexivity. Qed.

(** ** C64 *)
Open Scope Z_scope.

(** MakeRange has the length of the range and otherwise repeats its start. *)
Theorem C64_range_partial : forall first last,
  length (make_range first last) = Z.to_nat (last - first) /\ Forall (fun v => v = first) (make_range first last).
Proof.
  intros first last. rewrite make_range_repeat. split; [apply repeat_length|]. apply Forall_forall. intros v. apply repeat_spec.
Qed.
Theorem C64_range_refuted : forall first last, first + 1 < last ->
  exists i, 0 <= i < last - first /\ zindex (make_range first last) i <> Ok (first + i).
Proof.
  intros first last H. exists 1. split; [lia|]. rewrite make_range_repeat.
  replace (Z.to_nat (last - first)) with (S (S (Z.to_nat (last - first - 2)))) by lia. cbn. intros X. injection X as X. lia.
Qed.

(** MinMax returns the smallest and the largest element; Repeat, Zip and Contains. *)
Theorem C64_min_max : forall l, l <> [] ->
  exists lo hi, min_max l = Ok (lo, hi) /\ In lo l /\ In hi l /\ Forall (fun v => lo <= v <= hi) l.
Proof. exact min_max_ok. Qed.
Theorem C64_lists : forall A (eqb : A -> A -> bool) (x : A) n (a b l : list A),
  (forall x y, eqb x y = true <-> x = y) ->
  repeat_item x n = repeat x (Z.to_nat n) /\
  (contains eqb x l = true <-> In x l) /\
  (length a = length b -> exists c, zip a b = Ok c /\ map fst c = a /\ map snd c = b) /\
  (length a <> length b -> zip a b = Err).
Proof.
  intros A eqb x n a b l H. split; [apply repeat_item_ok|]. split; [now apply contains_ok|]. unfold zip. split; intros E.
  - replace (length a =? length b)%nat with true by lia. exists (combine a b). split; [reflexivity|].
    clear - E. revert b E. induction a as [|v a IH]; intros [|w b] E; cbn in E; try lia; [auto|]. destruct (IH b ltac:(lia)) as [I1 I2].
    cbn. now rewrite I1, I2.
  - now replace (length a =? length b)%nat with false by lia.
Qed.

(** Reading the lines of a file: one string per line; with the line breaks, two. *)
Theorem C64_lines_partial : forall lines, read_all_ln false lines = lines.
Proof. intros lines. unfold read_all_ln. induction lines as [|l ls IH]; [reflexivity|]. cbn in *. now rewrite IH. Qed.
Theorem C64_lines_refuted : forall lines, lines <> [] -> length (read_all_ln true lines) = (2 * length lines)%nat /\
  read_all_ln true lines <> map (fun l => l ++ [10%N]) lines.
Proof.
  intros lines Ne. assert (L : length (read_all_ln true lines) = (2 * length lines)%nat).
  { clear Ne. induction lines as [|l ls IH]; [reflexivity|].
    change (read_all_ln true (l :: ls)) with ((l ++ [10%N]) :: l :: read_all_ln true ls). cbn [length]. rewrite IH. lia. }
  split; [exact L|]. intros E. rewrite E, map_length in L. apply Ne. apply length_zero_iff_nil. unfold str in *. lia.
Qed.

(** Both iterators deliver the elements in order and then report the end; a reset iterator
    starts over. *)
Theorem C64_iterators : forall A (l : list A) (rs : list N),
  (exists it, it_drain (S (length l)) (new_iter l) = Ok (l, it)) /\
  (exists it, ri_drain (S (length rs)) (new_rune_iter rs) = Ok (rs, it) /\ ri_step it = Ok (0%N, false, it) /\
     ri_drain (S (length rs)) (ri_reset it) = Ok (rs, it)).
Proof.
  intros A l rs. split; [apply it_drain_ok|]. exists (RI rs (-1)). split; [apply ri_drain_ok|]. split; [reflexivity|].
  replace (ri_reset (RI rs (-1))) with (new_rune_iter rs); [apply ri_drain_ok|]. unfold ri_reset, new_rune_iter. cbn [ri_items].
  f_equal. unfold zlen. destruct (Z.ltb_spec 0 (Z.of_nat (length rs))); destruct (Z.eqb_spec (Z.of_nat (length rs)) 0); lia.
Qed.
(** After the last element the current index is -2, not that of the last element. *)
Theorem C64_index_refuted : forall rs, rs <> [] ->
  exists it, ri_drain (S (length rs)) (new_rune_iter rs) = Ok (rs, it) /\ ri_current it = -2.
Proof.
  intros rs Ne. exists (RI rs (-1)). split; [apply ri_drain_ok|]. unfold ri_current. cbn [ri_items ri_next].
  destruct rs; [congruence|]. reflexivity.
Qed.

Example ex_lists : make_range 3 6 = [3; 3; 3] /\ min_max [4; 2; 7] = Ok (2, 7) /\ read_all_ln true [[97%N]] = [[97; 10]; [97]]%N /\
  ri_drain 4 (new_rune_iter [97; 98; 99]%N) = Ok ([97; 98; 99]%N, RI [97; 98; 99]%N (-1)).
Proof. repeat split; reflexivity. Qed.

Print Assumptions C62_cut_partial.
Print Assumptions C62_cut_refuted.
Print Assumptions C62_delete_partial.
Print Assumptions C62_delete_refuted.
Print Assumptions C62_insert.
Print Assumptions C62_insert_vec_partial.
Print Assumptions C62_insert_vec_refuted.
Print Assumptions C62_out_of_range.
Print Assumptions C62_extend.
Print Assumptions C62_expand_partial.
Print Assumptions C62_expand_refuted.
Print Assumptions C62_push.
Print Assumptions C62_pop_partial.
Print Assumptions C62_pop_refuted.
Print Assumptions C62_filter.
Print Assumptions C62_reverse.
Print Assumptions C62_shuffle.
Print Assumptions C62_batch_partial.
Print Assumptions C62_batch_refuted.
Print Assumptions C62_dedup_partial.
Print Assumptions C62_dedup_refuted.
Print Assumptions C63_fresh.
Print Assumptions C63_copy.
Print Assumptions C63_merge.
Print Assumptions C63_elsewhere.
Print Assumptions C63_batch.
Print Assumptions C63_insert_partial.
Print Assumptions C63_insert_refuted.
Print Assumptions C63_delete_refuted.
Print Assumptions C64_range_partial.
Print Assumptions C64_range_refuted.
Print Assumptions C64_min_max.
Print Assumptions C64_lists.
Print Assumptions C64_lines_partial.
Print Assumptions C64_lines_refuted.
Print Assumptions C64_iterators.
Print Assumptions C64_index_refuted.
