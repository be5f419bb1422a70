(** C67: the parameter map: reading, writing, selecting and cloning. *)
From Coq Require Import Permutation.
From Verif Require Import Base BaseProofs ParamsModel ParamsSpec ParamsProofs.
Open Scope Z_scope.

(** Two maps, the second nested in the first; the first also has a nil entry and a plain one. *)
Definition prm_key (c : N) : str := [c].
Definition prm_heap : heap :=
  [ [(prm_key 97, VOther 1); (prm_key 98, VParams 1); (prm_key 99, VNilRef)];
    [(prm_key 97, VOther 2)] ].
Definition prm_depth (r : nat) : nat := match r with O => 1 | _ => 0 end%nat.
Lemma prm_wf : well_formed prm_heap.
Proof.
  intros m [<-|[<-|[]]]; (split; [cbn; repeat constructor; cbn; intuition discriminate|]); cbn; intros k r H;
    repeat match goal with H : _ \/ _ |- _ => destruct H | H : False |- _ => destruct H | H : (_, _) = (_, _) |- _ => injection H as ? ?; subst; try discriminate end.
  lia.
Qed.

(** Writing: Set, Pop, Delete and DeleteAll change one key, or all, of one map. *)
Theorem C67_write : forall h r k, (r < length h)%nat ->
  (forall v, elsewhere r h (p_set h r k v) /\
     forall k', stored (p_set h r k v) r k' = if str_eqb k' k then Some v else stored h r k') /\
  (fst (p_pop h r k) = match stored h r k with Some v => v | None => VNil end /\
   elsewhere r h (snd (p_pop h r k)) /\
   forall k', stored (snd (p_pop h r k)) r k' = if str_eqb k' k then None else stored h r k') /\
  ((forall v, stored h r k = Some v -> ~ is_array v) -> exists h', p_delete h r k = Ok h' /\ elsewhere r h h' /\
   forall k', stored h' r k' = if str_eqb k' k then None else stored h r k') /\
  ((forall k v, stored h r k = Some v -> ~ is_array v) -> exists h', p_delete_all h r = Ok h' /\ elsewhere r h h' /\
   p_len h' r = 0 /\ forall k', stored h' r k' = None).
Proof.
  intros h r k L. split; [|split; [|split]].
  - intros v. split; [now apply elsewhere_put|]. intros k'. now rewrite stored_set, Nat.eqb_refl.
  - unfold p_pop, stored. destruct (aget str_eqb k (params_at h r)) as [v|] eqn:G; cbn [fst snd].
    + split; [reflexivity|]. split; [now apply elsewhere_put|]. intros k'. now apply stored_remove.
    + split; [reflexivity|]. split; [intros r' _ _; reflexivity|]. intros k'. destruct (str_eqb k' k) eqn:D; [|reflexivity]. apply str_eqb_eq in D. now subst.
  - intros A. destruct (p_get_safe h r k VNil A) as (v & Hv). unfold p_delete. rewrite Hv. cbn [bind]. eexists. split; [reflexivity|].
    split; [now apply elsewhere_put|]. intros k'. now apply stored_remove.
  - intros A. destruct (delete_all_ok h r L A) as (h' & H & P & E & _). exists h'. split; [exact H|]. split; [exact E|]. unfold p_len, stored. rewrite P. auto.
Qed.
Print Assumptions C67_write.
Example C67_write_nonvacuous :
  stored (p_set prm_heap 1 (prm_key 98) (VOther 5)) 1 (prm_key 98) = Some (VOther 5) /\
  p_pop prm_heap 1 (prm_key 97) = (VOther 2, [params_at prm_heap 0; []]) /\
  p_delete prm_heap 0 (prm_key 99) = Ok [[(prm_key 97, VOther 1); (prm_key 98, VParams 1)]; params_at prm_heap 1] /\
  p_delete_all prm_heap 0 = Ok [[]; params_at prm_heap 1].
Proof. repeat split. Qed.

(** Reading: Get returns what is stored unless nothing or a nil is stored, Has says whether
    Get finds something, Param does not look at the value; Keys lists the keys once each. *)
Theorem C67_read : forall h r k,
  p_param h r k = match stored h r k with Some v => v | None => VNil end /\
  (forall v d, stored h r k = Some v -> proper v -> p_get h r k d = Ok v /\ p_has h r k = Ok true) /\
  (forall v d, stored h r k = Some v -> nil_like v -> p_get h r k d = Ok d /\ p_has h r k = Ok false) /\
  (forall d, stored h r k = None -> p_get h r k d = Ok d /\ p_has h r k = Ok false) /\
  (In k (p_keys h r) <-> stored h r k <> None) /\
  (well_formed h -> (r < length h)%nat -> NoDup (p_keys h r)) /\
  p_len h r = zlen (p_keys h r).
Proof.
  intros h r k. split; [reflexivity|]. split; [|split; [|split; [|split; [|split]]]].
  - intros v d S [Nn Na]. unfold p_get, p_has. unfold stored in S. rewrite S. destruct (is_nil_spec v Na) as [[X _]|[_ ->]]; [contradiction|]. split; reflexivity.
  - intros v d S N. unfold p_get, p_has. unfold stored in S. rewrite S. destruct N as [->| ->]; split; reflexivity.
  - intros d S. unfold p_get, p_has. unfold stored in S. rewrite S. split; reflexivity.
  - unfold p_keys, stored. split.
    + intros I G. now apply (ag_none str_eqb str_eqb_eq) in G.
    + intros G. destruct (aget str_eqb k (params_at h r)) as [v|] eqn:E; [|congruence]. apply (ag_in str_eqb str_eqb_eq) in E. now apply (in_map fst) in E.
  - intros W L. now apply (W _ (at_in h r L)).
  - unfold p_len, p_keys, zlen. now rewrite map_length.
Qed.
Print Assumptions C67_read.
Example C67_read_nonvacuous : well_formed prm_heap /\
  p_get prm_heap 0 (prm_key 97) (VOther 9) = Ok (VOther 1) /\ p_get prm_heap 0 (prm_key 99) (VOther 9) = Ok (VOther 9) /\
  p_get prm_heap 0 (prm_key 100) (VOther 9) = Ok (VOther 9) /\ p_has prm_heap 0 (prm_key 99) = Ok false /\ p_len prm_heap 0 = 3.
Proof. split; [exact prm_wf|repeat split]. Qed.

(** A stored array cannot be read, asked for, deleted or cloned: each of these panics. *)
Theorem C67_array_refuted : forall h r k, (exists v, stored h r k = Some v /\ is_array v) ->
  (forall d, p_get h r k d = Panic) /\ p_has h r k = Panic /\ p_delete h r k = Panic.
Proof.
  intros h r k (v & S & x & ->). unfold p_delete, p_get, p_has. unfold stored in S. rewrite S. repeat split.
Qed.
Print Assumptions C67_array_refuted.
Example C67_array_nonvacuous : let h := p_set prm_heap 0 (prm_key 100) (VArray 7) in
  stored h 0 (prm_key 100) = Some (VArray 7) /\ p_param h 0 (prm_key 100) = VArray 7 /\ p_clone 5 h 0 = Panic.
Proof. repeat split. Qed.

(** Select: a new map, in which the asked keys read as in the original. *)
Theorem C67_select_partial : forall h r keys, (r < length h)%nat ->
  (forall k v, In k keys -> stored h r k = Some v -> ~ is_array v) ->
  exists h' s, p_select h r keys = Ok (h', s) /\
    (length h <= s)%nat /\ (forall r', (r' < length h)%nat -> params_at h' r' = params_at h r') /\
    (forall k d, In k keys -> p_get h' s k d = p_get h r k d /\ p_has h' s k = p_has h r k) /\
    (forall k, ~ In k keys -> stored h' s k = None).
Proof.
  intros h r keys L A. destruct (select_ok h r keys L A) as (h' & H & [El Er] & _ & S). exists h', (length h).
  split; [exact H|]. split; [lia|]. split; [exact Er|]. split.
  - intros k d I. specialize (S k). destruct (in_dec _ _ _) as [_|X]; [|contradiction]. specialize (A k). unfold p_get, p_has. unfold stored, selected in *.
    rewrite S. unfold stored. destruct (aget str_eqb k (params_at h r)) as [[]|]; cbn; try (split; reflexivity).
  - intros k X. rewrite S. destruct (in_dec _ _ _); [contradiction|reflexivity].
Qed.
Print Assumptions C67_select_partial.
Example C67_select_nonvacuous :
  p_select prm_heap 0 [prm_key 98; prm_key 97] = Ok (prm_heap ++ [[(prm_key 98, VParams 1); (prm_key 97, VOther 1)]], 2%nat).
Proof. reflexivity. Qed.

(** Keys and Len of a selection are wrong: it has an entry for every key asked for, also for
    those the original does not have. *)
Theorem C67_select_refuted : forall h r keys h' s, (r < length h)%nat ->
  (forall k v, In k keys -> stored h r k = Some v -> ~ is_array v) -> p_select h r keys = Ok (h', s) ->
  (forall k, In k (p_keys h' s) <-> In k keys) /\ (NoDup keys -> p_len h' s = zlen keys).
Proof.
  intros h r keys h' s L A H. destruct (select_ok h r keys L A) as (h1 & H1 & _ & N & S). rewrite H1 in H. injection H as -> <-.
  assert (K : forall k, In k (p_keys h' (length h)) <-> In k keys).
  { intros k. pose proof (proj1 (proj2 (proj2 (proj2 (proj2 (C67_read h' (length h) k)))))) as R. rewrite R, S. destruct (in_dec _ _ _); split; intros; auto; congruence. }
  split; [exact K|]. intros Nk. unfold p_len. assert (E : length (p_keys h' (length h)) = length keys).
  { apply Permutation_length, NoDup_Permutation; auto. }
  unfold p_keys in E. rewrite map_length in E. unfold zlen. now rewrite E.
Qed.
Print Assumptions C67_select_refuted.
Example C67_select_absent :
  match p_select prm_heap 1 [prm_key 120; prm_key 121] with
  | Ok (h, s) => p_len h s = 2 /\ p_keys h s = [prm_key 120; prm_key 121] /\ p_keys prm_heap 1 = [prm_key 97]
  | _ => False
  end.
Proof. repeat split. Qed.

(** Clone: for parameters without arrays that do not contain themselves it ends and returns a
    deep copy.  Existing maps are unchanged, and no map belongs both to the copy and to the
    original.  Nil pointers become nil. *)
Theorem C67_clone_partial : forall h depth r, well_formed h -> nested_below h depth -> array_free h (VParams r) -> (r < length h)%nat ->
  exists h' v, p_clone (S (depth r)) h r = Ok (h', v) /\
    deep_copy_of h h' (VParams r) v /\
    (forall r', (r' < length h)%nat -> params_at h' r' = params_at h r') /\
    (forall r', reaches h' v r' -> ~ reaches h' (VParams r) r').
Proof.
  intros h depth r W B A L. destruct (clone_ok h depth r W B A L) as (h' & v & H & E & D & R). exists h', v.
  split; [exact H|]. split; [exact D|]. split; [exact (proj2 E)|]. intros r' R1 R2.
  pose proof (R _ R1). pose proof (wf_reaches h r r' W L (reaches_ext_wf h h' r r' W L E R2)). lia.
Qed.
Print Assumptions C67_clone_partial.
Example C67_clone_nonvacuous : well_formed prm_heap /\ nested_below prm_heap prm_depth /\ array_free prm_heap (VParams 0) /\
  p_clone 2 prm_heap 0 = Ok (prm_heap ++ [[(prm_key 97, VOther 1); (prm_key 98, VParams 3); (prm_key 99, VNil)]; [(prm_key 97, VOther 2)]], VParams 2).
Proof.
  split; [exact prm_wf|]. split; [|split; [|reflexivity]].
  - intros r k r' S. unfold stored in S. apply (ag_in str_eqb str_eqb_eq) in S. destruct r as [|[|[|r]]]; cbn in S;
      repeat match goal with H : _ \/ _ |- _ => destruct H | H : False |- _ => destruct H | H : (_, _) = (_, _) |- _ => injection H as ? ?; subst; try discriminate end.
    cbn. lia.
  - intros r k x _ S [y ->]. unfold stored in S. apply (ag_in str_eqb str_eqb_eq) in S. destruct r as [|[|[|r]]]; cbn in S;
      repeat match goal with H : _ \/ _ |- _ => destruct H | H : False |- _ => destruct H | H : (_, _) = (_, _) |- _ => injection H as ? ?; subst; try discriminate end.
Qed.

(** Parameters that contain themselves are cloned forever. *)
Theorem C67_cyclic_refuted : forall h r k, (r < length h)%nat -> stored h r k = Some (VParams r) -> forall fuel x, p_clone fuel h r <> Ok x.
Proof. intros h r k L S fuel x. exact (clone_cyclic fuel h r k L S x). Qed.
Print Assumptions C67_cyclic_refuted.
Example C67_cyclic_nonvacuous : let h := p_set prm_heap 1 (prm_key 120) (VParams 1) in
  stored h 1 (prm_key 120) = Some (VParams 1) /\ p_clone 50 h 1 = NoFuel.
Proof. repeat split. Qed.

(** Copy and DeepCopy: the value under the new key; DeepCopy shares nothing. *)
Theorem C67_copy : forall h r from k newKey,
  (r < length h)%nat -> (from < length h)%nat ->
  (forall v, stored h from k = Some v -> proper v ->
     exists h', p_copy h r from k newKey = Ok h' /\ elsewhere r h h' /\
       forall k', stored h' r k' = if str_eqb k' newKey then Some v else stored h r k') /\
  (forall depth s, well_formed h -> nested_below h depth -> array_free h (VParams s) -> (s < length h)%nat ->
     stored h from k = Some (VParams s) ->
     exists h' s', p_deep_copy (S (depth s)) h r from k newKey = Ok h' /\ elsewhere r h h' /\
       (forall k', stored h' r k' = if str_eqb k' newKey then Some (VParams s') else stored h r k') /\
       deep_copy_of h h' (VParams s) (VParams s') /\
       forall q, reaches h' (VParams s') q -> (length h <= q)%nat).
Proof.
  intros h r from k newKey L Lf. split.
  - intros v S P. destruct (proj1 (proj2 (C67_read h from k)) v VNil S P) as [G _]. unfold p_copy. rewrite G. cbn [bind]. eexists. split; [reflexivity|].
    split; [now apply elsewhere_put|]. intros k'. now rewrite stored_set, Nat.eqb_refl.
  - intros depth s W B A Ls S. destruct (clone_ok h depth s W B A Ls) as (h' & v & H & E & D & R).
    unfold p_deep_copy, p_get. unfold stored in S. rewrite S. cbn [is_nil bind]. unfold p_clone in H. rewrite H. cbn [bind fst snd].
    inversion D as [v0 X| |r0 r' D1 D2]; subst; [destruct X; discriminate|].
    exists (p_set h' r newKey (VParams r')), r'. split; [reflexivity|]. destruct E as [El Er].
    assert (F : forall q, reaches h' (VParams r') q -> params_at (p_set h' r newKey (VParams r')) q = params_at h' q).
    { intros q Q. pose proof (R q Q). unfold p_set. apply put_other; lia. }
    split; [|split; [|split]].
    + intros q Q Lq. unfold p_set. rewrite put_other by lia. now apply Er.
    + intros k'. rewrite stored_set, Nat.eqb_refl by lia. unfold stored. now rewrite Er.
    + apply (copy_target h h'); [exact D|exact F].
    + intros q Q. assert (Q' : reaches h' (VParams r') q); [|pose proof (R q Q'); lia].
      clear - Q R F. remember (p_set h' r newKey (VParams r')) as g eqn:Eg. clear Eg. remember (VParams r') as w eqn:Ew. clear Ew. induction Q as [q|q kk v q' Sq Q IH]; [constructor|].
      assert (Rq : reaches h' (VParams q) q) by constructor. unfold stored in Sq. rewrite (F q Rq) in Sq.
      apply (Reach_in h' q kk v); [exact Sq|]. apply IH.
      * intros x X. apply R. now apply (Reach_in h' q kk v).
      * intros x X. apply F. now apply (Reach_in h' q kk v).
Qed.
Print Assumptions C67_copy.
Example C67_copy_nonvacuous :
  p_copy prm_heap 1 0 (prm_key 97) (prm_key 122) = Ok [params_at prm_heap 0; [(prm_key 97, VOther 2); (prm_key 122, VOther 1)]] /\
  p_deep_copy 1 prm_heap 0 0 (prm_key 98) (prm_key 122) = Ok [params_at prm_heap 0 ++ [(prm_key 122, VParams 2)]; params_at prm_heap 1; [(prm_key 97, VOther 2)]].
Proof. repeat split. Qed.

(** WithParams: the options carry the values the parameters have when the options are made;
    applying them overwrites these keys and no others. *)
Theorem C67_options : forall h g r from, well_formed h -> (from < length h)%nat -> (r < length g)%nat ->
  elsewhere r g (p_with g r (p_options h from)) /\
  forall k, stored (p_with g r (p_options h from)) r k = match stored h from k with Some v => Some v | None => stored g r k end.
Proof.
  intros h g r from W Lf L. destruct (W _ (at_in h from Lf)) as [N _]. unfold p_options, stored at 2. clear W Lf.
  revert g L. induction (params_at h from) as [|[k v] l IH]; intros g L.
  - split; [intros q _ _; reflexivity|]. reflexivity.
  - cbn [map fst] in N. apply NoDup_cons_iff in N as [Nk Nl]. specialize (IH Nl (p_set g r k v)). rewrite set_length in IH by exact L. destruct (IH L) as [E S].
    unfold p_with in *. cbn [fold_left fst snd]. split.
    + intros q D Lq. rewrite E by (rewrite ?set_length by exact L; auto). unfold p_set. now apply put_other.
    + intros k'. rewrite S, stored_set, Nat.eqb_refl by exact L. cbn [aget]. destruct (str_eqb k' k) eqn:D; [|reflexivity].
      apply str_eqb_eq in D. subst k'. destruct (aget str_eqb k l) as [w|] eqn:G; [|reflexivity]. apply (ag_in str_eqb str_eqb_eq) in G. apply (in_map fst) in G. contradiction.
Qed.
Print Assumptions C67_options.
Example C67_options_nonvacuous : p_with prm_heap 1 (p_options prm_heap 0) =
  [params_at prm_heap 0; [(prm_key 97, VOther 1); (prm_key 98, VParams 1); (prm_key 99, VNilRef)]].
Proof. reflexivity. Qed.
