(** Proofs about Params. *)
From Verif Require Import Base BaseProofs EncodingProofs ParamsModel ParamsSpec.
Open Scope Z_scope.

(** ** Maps in the heap *)
Lemma put_length h r m : (r < length h)%nat -> length (put_params h r m) = length h.
Proof. intros H. unfold put_params. rewrite app_length, firstn_length. cbn [length]. rewrite skipn_length. lia. Qed.
Lemma put_same h r m : (r < length h)%nat -> params_at (put_params h r m) r = m.
Proof.
  intros H. unfold params_at, put_params. rewrite app_nth2 by (rewrite firstn_length; lia). rewrite firstn_length.
  replace (r - Nat.min r (length h))%nat with 0%nat by lia. reflexivity.
Qed.
Lemma put_other h r m r' : r' <> r -> (r < length h)%nat -> params_at (put_params h r m) r' = params_at h r'.
Proof.
  intros D H. unfold params_at, put_params. destruct (Nat.lt_ge_cases r' r) as [L|L].
  - rewrite app_nth1 by (rewrite firstn_length; lia). rewrite <- (firstn_skipn r h) at 2. rewrite app_nth1 by (rewrite firstn_length; lia). reflexivity.
  - rewrite app_nth2 by (rewrite firstn_length; lia). rewrite firstn_length. replace (r' - Nat.min r (length h))%nat with (S (r' - S r)) by lia. cbn [nth].
    rewrite <- (firstn_skipn (S r) h) at 2. rewrite app_nth2 by (rewrite firstn_length; lia). rewrite firstn_length. f_equal. lia.
Qed.
Lemma at_alloc h m r : (r < length h)%nat -> params_at (h ++ [m]) r = params_at h r.
Proof. intros H. unfold params_at. now rewrite app_nth1. Qed.
Lemma at_new h m : params_at (h ++ [m]) (length h) = m.
Proof. unfold params_at. rewrite app_nth2, Nat.sub_diag by lia. reflexivity. Qed.
Lemma aget_remove k k' m : aget str_eqb k' (aremove k m) = if str_eqb k' k then None else aget str_eqb k' m.
Proof.
  induction m as [|[k0 v0] m IH]; [now destruct (str_eqb k' k)|]. cbn [aremove filter fst]. destruct (str_eqb k k0) eqn:E; cbn [negb].
  - apply str_eqb_eq in E. subst k0. fold (aremove k m). rewrite IH. cbn [aget]. now destruct (str_eqb k' k).
  - cbn [aget]. fold (aremove k m). rewrite IH. destruct (str_eqb k' k0) eqn:E0; [|reflexivity]. apply str_eqb_eq in E0. subst k'.
    destruct (str_eqb k0 k) eqn:E1; [|reflexivity]. apply str_eqb_eq in E1. subst k0. now rewrite str_eqb_refl in E.
Qed.
Lemma stored_set h r k v r' k' : (r < length h)%nat ->
  stored (p_set h r k v) r' k' = if Nat.eqb r' r then (if str_eqb k' k then Some v else stored h r k') else stored h r' k'.
Proof.
  intros H. unfold stored, p_set. destruct (Nat.eqb_spec r' r) as [->|D]; [|now rewrite put_other].
  rewrite put_same by exact H. apply (ag_aset str_eqb str_eqb_eq).
Qed.
Lemma set_length h r k v : (r < length h)%nat -> length (p_set h r k v) = length h.
Proof. apply put_length. Qed.

(** ** Extension of the heap *)
Definition ext (h h' : heap) : Prop := (length h <= length h')%nat /\ forall r, (r < length h)%nat -> params_at h' r = params_at h r.
Lemma ext_refl h : ext h h. Proof. split; auto. Qed.
Lemma ext_trans h1 h2 h3 : ext h1 h2 -> ext h2 h3 -> ext h1 h3.
Proof. intros [L1 E1] [L2 E2]. split; [lia|]. intros r H. rewrite E2 by lia. auto. Qed.
Lemma ext_alloc h m : ext h (h ++ [m]).
Proof. split; [rewrite app_length; cbn; lia|]. intros r H. now apply at_alloc. Qed.
Lemma ext_set h h' r k v : ext h h' -> (length h <= r)%nat -> (r < length h')%nat -> ext h (p_set h' r k v).
Proof.
  intros [L E] B B'. split; [rewrite set_length by exact B'; lia|]. intros r' H. unfold p_set. rewrite put_other by lia. auto.
Qed.

(** One turn of the loops of Clone. *)
Definition clone_turn (fuel : nat) (r out : nat) (h : heap) (k : str) : res heap :=
  do x <- p_get h r k VNil; do hx <- deep fuel h x; Ok (p_set (fst hx) out k (snd hx)).
Lemma deep_unfold fuel h r : deep (S fuel) h (VParams r) =
  do h' <- foldR (clone_turn fuel r (length h)) (p_keys h r) (h ++ [[]]); Ok (h', VParams (length h)).
Proof. reflexivity. Qed.

Lemma deep_frame fuel : forall h v h' v', deep fuel h v = Ok (h', v') -> ext h h'.
Proof.
  induction fuel as [|fuel IH]; intros h v h' v'; destruct v; try (intros X; injection X as <- <-; apply ext_refl); [discriminate|].
  rewrite deep_unfold. intros H. apply bind_Ok_inv in H as (h1 & H & X). injection X as <- <-.
  assert (G : forall ks h0 h1, ext h h0 -> (length h < length h0)%nat -> foldR (clone_turn fuel r (length h)) ks h0 = Ok h1 -> ext h h1).
  { clear H. induction ks as [|k ks IHk]; intros h0 h2 E L; cbn [foldR]; [intros X; injection X as <-; exact E|].
    unfold clone_turn at 1. intros H. apply bind_Ok_inv in H as (h3 & H3 & H). apply bind_Ok_inv in H3 as (x & Hx & H3).
    apply bind_Ok_inv in H3 as ([h4 v4] & H4 & H3). injection H3 as <-. cbn [fst snd] in H. apply IH in H4. pose proof (ext_trans _ _ _ E H4) as E'.
    destruct H4 as [L4 _]. apply (IHk _ _ (ext_set h h4 (length h) k v4 E' ltac:(lia) ltac:(lia))) in H; [exact H|]. rewrite set_length by lia. lia. }
  eapply G; [| |exact H]; [apply ext_alloc|rewrite app_length; cbn; lia].
Qed.

(** Values that can be copied with [n] nested calls. *)
Fixpoint okv (h : heap) (n : nat) (v : value) : Prop :=
  match v with
  | VNil | VOther _ => True
  | VNilRef | VArray _ => False
  | VParams r =>
      match n with
      | O => False
      | S n' => (r < length h)%nat /\ forall k x, stored h r k = Some x -> nil_like x \/ okv h n' x
      end
  end.
Lemma okv_ext n : forall h h' v, okv h n v -> ext h h' -> okv h' n v.
Proof.
  induction n as [|n IH]; intros h h' v; destruct v; try (cbn; tauto). cbn [okv]. intros [L H] E. pose proof E as [El Er]. split; [lia|].
  intros k x Hx. unfold stored in Hx. rewrite Er in Hx by exact L. destruct (H k x Hx) as [N|O]; [now left|right]. now apply (IH h).
Qed.
Lemma okv_reaches n : forall h v r, okv h n v -> reaches h v r -> (r < length h)%nat.
Proof.
  intros h v r O R. revert n O. induction R as [r|r k v r' S R IH]; intros n O; destruct n; cbn in O; try tauto.
  destruct O as [_ O]. destruct (O k v S) as [N|O']; [|now apply IH in O']. inversion R; subst; destruct N; discriminate.
Qed.

Lemma reaches_agree h h' v r : reaches h v r -> (forall r, reaches h v r -> params_at h' r = params_at h r) -> reaches h' v r.
Proof.
  intros R. induction R as [r|r k v r' S R IH]; intros E; [constructor|]. econstructor.
  - unfold stored. rewrite E by constructor. exact S.
  - apply IH. intros r0 R0. apply E. now apply (Reach_in h r k v).
Qed.
Lemma reaches_ext n h h' v r : okv h n v -> ext h h' -> reaches h' v r -> reaches h v r.
Proof.
  intros O E R. revert n O. induction R as [r|r k v r' S R IH]; intros n O; [constructor|]. destruct n; cbn in O; [tauto|]. destruct O as [L O]. destruct E as [El Er].
  unfold stored in S. rewrite Er in S by exact L. apply (Reach_in h r k v); [exact S|]. destruct (O k v S) as [N|O']; [|now apply (IH n)]. inversion R; subst; destruct N; discriminate.
Qed.
Lemma copy_target h h1 h2 v v' : deep_copy_of h h1 v v' -> (forall r, reaches h1 v' r -> params_at h2 r = params_at h1 r) -> deep_copy_of h h2 v v'.
Proof.
  intros D. induction D as [v N|x|r r' K H IH]; intros E; [now constructor|constructor|].
  assert (E' : params_at h2 r' = params_at h1 r') by (apply E; constructor).
  constructor; unfold stored in *; rewrite E'; [exact K|]. intros k v v' S S'. apply (IH k v v' S S'). intros r0 R0. apply E. now apply (Reach_in h1 r' k v').
Qed.
Lemma copy_source n h h1 h2 v v' : deep_copy_of h1 h2 v v' -> okv h n v -> ext h h1 -> deep_copy_of h h2 v v'.
Proof.
  intros D. revert n. induction D as [v N|x|r r' K H IH]; intros n O E; [now constructor|constructor|].
  destruct n; cbn in O; [tauto|]. destruct O as [L O]. pose proof E as [El Er]. unfold stored in *. rewrite Er in K, H, IH by exact L.
  constructor; unfold stored; [exact K|]. intros k v v' S S'. destruct (O k v S) as [N|O'].
  - pose proof (H k v v' S S') as D. inversion D; subst; [now constructor|destruct N; discriminate|destruct N; discriminate].
  - now apply (IH k v v' S S' n).
Qed.

(** The copy: all parts copied, in new maps only. *)
Definition copied (h : heap) (v : value) (h' : heap) (v' : value) : Prop :=
  deep_copy_of h h' v v' /\ forall r, reaches h' v' r -> (length h <= r < length h')%nat.

Lemma p_get_cases h r k n x : stored h r k = Some x -> nil_like x \/ okv h n x ->
  exists y, p_get h r k VNil = Ok y /\ okv h n y /\ (nil_like x /\ y = VNil \/ ~ nil_like x /\ y = x).
Proof.
  intros S O. unfold p_get. unfold stored in S. rewrite S. destruct O as [[->| ->]|O].
  - exists VNil. split; [reflexivity|]. split; [now destruct n|]. left. split; [now left|reflexivity].
  - exists VNil. split; [reflexivity|]. split; [now destruct n|]. left. split; [now right|reflexivity].
  - unfold nil_like. destruct x; try (destruct n; cbn in O; tauto); cbn; eexists; (split; [reflexivity|]); (split; [exact O|]); auto; right; (split; [intros [X|X]; discriminate|reflexivity]).
Qed.

Lemma deep_ok fuel : forall h v, okv h fuel v -> exists h' v', deep fuel h v = Ok (h', v') /\ copied h v h' v'.
Proof.
  induction fuel as [|fuel IH]; intros h v O.
  - destruct v as [| | |r|x]; cbn in O; try tauto.
    + exists h, VNil. split; [reflexivity|]. split; [constructor; now left|]. intros r R. inversion R.
    + exists h, (VOther x). split; [reflexivity|]. split; [constructor|]. intros q R. inversion R.
  - destruct v as [| | |r|x]; cbn in O; try tauto.
    + exists h, VNil. split; [reflexivity|]. split; [constructor; now left|]. intros r R. inversion R.
    + destruct O as [L O]. rewrite deep_unfold. set (out := length h).
      assert (G : forall ks2 ks1 h1, p_keys h r = ks1 ++ ks2 -> ext h h1 -> (out < length h1)%nat ->
        (forall k, ~ In k ks1 -> stored h1 out k = None) ->
        (forall k, In k ks1 -> exists x x', stored h r k = Some x /\ stored h1 out k = Some x' /\ deep_copy_of h h1 x x' /\ forall q, reaches h1 x' q -> (out < q < length h1)%nat) ->
        exists h', foldR (clone_turn fuel r out) ks2 h1 = Ok h' /\ ext h h' /\ (out < length h')%nat /\
        (forall k, ~ In k (p_keys h r) -> stored h' out k = None) /\
        (forall k, In k (p_keys h r) -> exists x x', stored h r k = Some x /\ stored h' out k = Some x' /\ deep_copy_of h h' x x' /\ forall q, reaches h' x' q -> (out < q < length h')%nat)).
      { induction ks2 as [|k ks2 IHk]; intros ks1 h1 Ek E Lo N C; cbn [foldR].
        - exists h1. rewrite app_nil_r in Ek. rewrite Ek. auto.
        - assert (Sk : exists x, stored h r k = Some x).
          { unfold stored. destruct (aget str_eqb k (params_at h r)) as [x|] eqn:A; [eauto|]. apply (ag_none str_eqb str_eqb_eq) in A. exfalso. apply A.
            change (In k (p_keys h r)). rewrite Ek. apply in_or_app. right. now left. }
          destruct Sk as (x & Sx). pose proof E as [El Er].
          assert (Sx1 : stored h1 r k = Some x) by (unfold stored; rewrite Er by exact L; exact Sx).
          assert (Ox : nil_like x \/ okv h1 fuel x) by (destruct (O k x Sx) as [Nx|Ox]; [now left|right; now apply (okv_ext fuel h)]).
          destruct (p_get_cases h1 r k fuel x Sx1 Ox) as (y & Hy & Oy & Ey).
          destruct (IH h1 y Oy) as (h2 & y' & Hd & Cd & Rd). pose proof (deep_frame fuel _ _ _ _ Hd) as F. pose proof F as [Fl Fr].
          assert (T : clone_turn fuel r out h1 k = Ok (p_set h2 out k y')) by (unfold clone_turn; rewrite Hy; cbn [bind]; rewrite Hd; reflexivity).
          rewrite T. cbn [bind]. set (h3 := p_set h2 out k y').
          assert (L3 : length h3 = length h2) by (apply set_length; lia).
          assert (A3 : forall q, q <> out -> params_at h3 q = params_at h2 q) by (intros q D; unfold h3, p_set; apply put_other; [exact D|lia]).
          apply (IHk (ks1 ++ [k])).
          + rewrite Ek. now rewrite <- app_assoc.
          + unfold h3. apply ext_set; [eapply ext_trans; [exact E|exact F]|unfold out; lia|lia].
          + lia.
          + intros k0 N0. assert (D0 : str_eqb k0 k = false) by (apply str_eqb_neq; intros ->; apply N0, in_or_app; right; now left).
            unfold h3. rewrite stored_set, Nat.eqb_refl, D0 by lia. unfold stored. rewrite Fr by exact Lo. apply N. intros I. apply N0, in_or_app. now left.
          + intros k0 I0. unfold h3. rewrite stored_set, Nat.eqb_refl by lia. fold h3. destruct (str_eqb k0 k) eqn:D0.
            * apply str_eqb_eq in D0. subst k0. exists x, y'. split; [exact Sx|]. split; [reflexivity|].
              assert (A : forall q, reaches h2 y' q -> params_at h3 q = params_at h2 q) by (intros q R; apply A3; apply Rd in R; lia).
              split.
              -- destruct Ey as [[Nx ->]|[Nx ->]].
                 ++ inversion Cd; subst. now constructor.
                 ++ destruct (O k x Sx) as [Nx'|Ox']; [contradiction|]. apply (copy_source fuel h h1); [|exact Ox'|exact E]. now apply (copy_target h1 h2).
              -- intros q R. rewrite L3. assert (R' : reaches h2 y' q).
                 { clear - A R. set (P := fun q => reaches h2 y' q) in *. assert (G : forall v q, reaches h3 v q -> (forall q, reaches h2 v q -> reaches h2 y' q) -> reaches h2 v q).
                   { intros v q0 R0. induction R0 as [r0|r0 k0 v0 r1 S0 R0 IH0]; intros W; [constructor|].
                     assert (X : params_at h3 r0 = params_at h2 r0) by (apply A, W; constructor). unfold stored in S0. rewrite X in S0.
                     apply (Reach_in h2 r0 k0 v0); [exact S0|]. apply IH0. intros q1 R1. apply W. now apply (Reach_in h2 r0 k0 v0). }
                   apply G; auto. }
                 apply Rd in R'. lia.
            * assert (I1 : In k0 ks1).
              { apply in_app_or in I0 as [I0|[I0|[]]]; [exact I0|]. subst k0. now rewrite str_eqb_refl in D0. }
              destruct (C k0 I1) as (x0 & x0' & S0 & S0' & D & R). exists x0, x0'. split; [exact S0|]. split; [unfold stored; rewrite Fr by exact Lo; exact S0'|].
              assert (A : forall q, reaches h1 x0' q -> params_at h3 q = params_at h1 q) by (intros q Rq; apply R in Rq; rewrite A3 by lia; apply Fr; lia).
              split; [now apply (copy_target h h1)|]. intros q Rq. assert (R' : reaches h1 x0' q).
              { assert (G : forall v q, reaches h3 v q -> (forall q, reaches h1 v q -> reaches h1 x0' q) -> reaches h1 v q).
                { intros v q0 R0. induction R0 as [r0|r0 k1 v0 r1 S1 R0 IH0]; intros W; [constructor|].
                  assert (X : params_at h3 r0 = params_at h1 r0) by (apply A, W; constructor). unfold stored in S1. rewrite X in S1.
                  apply (Reach_in h1 r0 k1 v0); [exact S1|]. apply IH0. intros q1 R1. apply W. now apply (Reach_in h1 r0 k1 v0). }
                apply G; auto. }
              apply R in R'. lia. }
      destruct (G (p_keys h r) [] (h ++ [[]])) as (h' & Hf & E & Lo & N & C).
      * reflexivity.
      * apply ext_alloc.
      * unfold out. rewrite app_length. cbn. lia.
      * intros k _. unfold stored, out. now rewrite at_new.
      * intros k [].
      * rewrite Hf. cbn [bind]. exists h', (VParams out). split; [reflexivity|]. split.
        -- constructor.
           ++ intros k. destruct (in_dec (list_eq_dec N.eq_dec) k (p_keys h r)) as [I|I].
              ** destruct (C k I) as (x & x' & -> & -> & _). split; discriminate.
              ** rewrite (N k I). split; [reflexivity|]. intros _. apply (ag_none str_eqb str_eqb_eq). exact I.
           ++ intros k x x' S S'. destruct (in_dec (list_eq_dec N.eq_dec) k (p_keys h r)) as [I|I]; [|rewrite (N k I) in S'; discriminate].
              destruct (C k I) as (y & y' & T & T' & D & _). congruence.
        -- intros q R. inversion R as [r0|r0 k x r1 S R0]; subst; [unfold out in *; lia|].
           destruct (in_dec (list_eq_dec N.eq_dec) k (p_keys h r)) as [I|I]; [|rewrite (N k I) in S; discriminate].
           destruct (C k I) as (y & y' & T & T' & _ & B). rewrite T' in S. injection S as <-. apply B in R0. unfold out in *. lia.
    + exists h, (VOther x). split; [reflexivity|]. split; [constructor|]. intros q R. inversion R.
Qed.

Lemma at_in h r : (r < length h)%nat -> In (params_at h r) h.
Proof. intros H. unfold params_at. now apply nth_In. Qed.
Lemma okv_nested h depth v0 : well_formed h -> nested_below h depth -> array_free h v0 ->
  forall n r, (depth r < n)%nat -> (r < length h)%nat -> reaches h v0 r -> okv h n (VParams r).
Proof.
  intros W B A. induction n as [|n IH]; intros r D L R; [lia|]. cbn [okv]. split; [exact L|]. intros k x S.
  destruct x as [| |x|r'|x]; [left; now left|left; now right| | |right; now destruct n].
  - exfalso. apply (A r k (VArray x) R S). now exists x.
  - right. apply IH.
    + pose proof (B r k r' S). lia.
    + destruct (W (params_at h r) (at_in h r L)) as [_ V]. apply (V k). now apply (ag_in str_eqb str_eqb_eq).
    + clear - R S. induction R as [r|r k0 v r0 S0 R IH].
      * apply (Reach_in h r k (VParams r')); [exact S|constructor].
      * apply (Reach_in h r k0 v); auto.
Qed.
Lemma clone_ok h depth r : well_formed h -> nested_below h depth -> array_free h (VParams r) -> (r < length h)%nat ->
  exists h' v', p_clone (S (depth r)) h r = Ok (h', v') /\ ext h h' /\ copied h (VParams r) h' v'.
Proof.
  intros W B A L. destruct (deep_ok (S (depth r)) h (VParams r)) as (h' & v' & H & C).
  - apply (okv_nested h depth (VParams r) W B A); [lia|exact L|constructor].
  - exists h', v'. split; [exact H|]. split; [exact (deep_frame _ _ _ _ _ H)|exact C].
Qed.
(** Nothing is reached from both. *)
Lemma wf_reaches h r q : well_formed h -> (r < length h)%nat -> reaches h (VParams r) q -> (q < length h)%nat.
Proof.
  intros W L R. remember (VParams r) as v eqn:E. revert r L E. induction R as [r0|r0 k v r' S R IH]; intros r L E; injection E as ->; [exact L|].
  destruct v as [| | |r1|]; try (inversion R; fail). apply (IH r1); [|reflexivity].
  destruct (W (params_at h r) (at_in h r L)) as [_ V]. apply (V k). now apply (ag_in str_eqb str_eqb_eq).
Qed.
Lemma reaches_ext_wf h h' r q : well_formed h -> (r < length h)%nat -> ext h h' -> reaches h' (VParams r) q -> reaches h (VParams r) q.
Proof.
  intros W L [El Er] R. remember (VParams r) as v eqn:E. revert r L E. induction R as [r0|r0 k v r' S R IH]; intros r L E; injection E as ->; [constructor|].
  unfold stored in S. rewrite Er in S by exact L. apply (Reach_in h r k v); [exact S|]. destruct v as [| | |r1|]; try (inversion R; fail). apply (IH r1); [|reflexivity].
  destruct (W (params_at h r) (at_in h r L)) as [_ V]. apply (V k). now apply (ag_in str_eqb str_eqb_eq).
Qed.

Lemma clone_cyclic fuel : forall h r k, (r < length h)%nat -> stored h r k = Some (VParams r) -> forall x, deep fuel h (VParams r) <> Ok x.
Proof.
  induction fuel as [|fuel IH]; intros h r k L S x; [discriminate|]. rewrite deep_unfold. intros H. apply bind_Ok_inv in H as (h1 & H & _).
  assert (G : forall ks h0, In k ks -> ext h h0 -> (length h < length h0)%nat -> foldR (clone_turn fuel r (length h)) ks h0 = Ok h1 -> False).
  { clear H. induction ks as [|k0 ks IHk]; intros h0 I E Lo; [destruct I|]. cbn [foldR]. intros H. apply bind_Ok_inv in H as (h2 & H2 & H).
    unfold clone_turn in H2. apply bind_Ok_inv in H2 as (y & Hy & H2). apply bind_Ok_inv in H2 as ([h3 v3] & H3 & H2). injection H2 as <-. cbn [fst snd] in H.
    destruct (str_eqb k k0) eqn:D.
    - apply str_eqb_eq in D. subst k0. destruct E as [El Er]. assert (S' : stored h0 r k = Some (VParams r)) by (unfold stored; rewrite Er by exact L; exact S).
      unfold p_get in Hy. unfold stored in S'. rewrite S' in Hy. cbn in Hy. injection Hy as <-. apply (IH h0 r k ltac:(lia) S' _ H3).
    - destruct I as [->|I]; [now rewrite str_eqb_refl in D|]. pose proof (deep_frame _ _ _ _ _ H3) as F. pose proof (ext_trans _ _ _ E F) as E'. destruct F as [Fl _].
      apply (IHk _ I (ext_set h h3 (length h) k0 v3 E' ltac:(lia) ltac:(lia))) in H; [exact H|]. rewrite set_length by lia. lia. }
  eapply G; [| | |exact H].
  - unfold p_keys. apply (ag_in str_eqb str_eqb_eq) in S. apply (in_map fst) in S. exact S.
  - apply ext_alloc.
  - rewrite app_length. cbn. lia.
Qed.

(** ** Single maps *)
Lemma elsewhere_put h r m : (r < length h)%nat -> elsewhere r h (put_params h r m).
Proof. intros L r' D _. now apply put_other. Qed.
Lemma stored_remove h r k k' : (r < length h)%nat ->
  stored (put_params h r (aremove k (params_at h r))) r k' = if str_eqb k' k then None else stored h r k'.
Proof. intros L. unfold stored. rewrite put_same by exact L. apply aget_remove. Qed.
Lemma is_nil_spec v : ~ is_array v -> (nil_like v /\ is_nil v = Ok true) \/ (~ nil_like v /\ is_nil v = Ok false).
Proof.
  unfold nil_like. intros A. destruct v; cbn; auto; try (right; split; [intros [X|X]; discriminate|reflexivity]). exfalso. apply A. eexists. reflexivity.
Qed.
Lemma p_get_safe h r k d : (forall v, stored h r k = Some v -> ~ is_array v) -> exists v, p_get h r k d = Ok v.
Proof.
  intros A. unfold p_get. unfold stored in A. destruct (aget str_eqb k (params_at h r)) as [v|]; [|eauto].
  destruct (is_nil_spec v (A v eq_refl)) as [[_ ->]|[_ ->]]; cbn; eauto.
Qed.
Lemma delete_all_ok h r : (r < length h)%nat -> (forall k v, stored h r k = Some v -> ~ is_array v) ->
  exists h', p_delete_all h r = Ok h' /\ params_at h' r = [] /\ elsewhere r h h' /\ length h' = length h.
Proof.
  intros L A. unfold p_delete_all.
  assert (G : forall ks h0, (r < length h0)%nat -> (forall k v, stored h0 r k = Some v -> ~ is_array v) ->
    exists h', foldR (fun h k => p_delete h r k) ks h0 = Ok h' /\ length h' = length h0 /\ elsewhere r h0 h' /\
      params_at h' r = filter (fun e => negb (existsb (fun k => str_eqb k (fst e)) ks)) (params_at h0 r)).
  { clear L A h. induction ks as [|k ks IH]; intros h0 L A; cbn [foldR].
    - exists h0. split; [reflexivity|]. split; [reflexivity|]. split; [intros r' _ _; reflexivity|]. cbn. induction (params_at h0 r) as [|e l IHl]; [reflexivity|]. cbn. now rewrite <- IHl.
    - destruct (p_get_safe h0 r k VNil (A k)) as (v & Hv). unfold p_delete at 1. rewrite Hv. cbn [bind].
      destruct (IH (put_params h0 r (aremove k (params_at h0 r)))) as (h' & H' & L' & E' & P').
      + now rewrite put_length.
      + intros k' v' S. rewrite stored_remove in S by exact L. destruct (str_eqb k' k); [discriminate|]. now apply (A k').
      + exists h'. split; [exact H'|]. rewrite put_length in L' by exact L. split; [exact L'|]. split.
        * intros r' D B. rewrite E' by (rewrite ?put_length by exact L; auto). now apply put_other.
        * rewrite P', put_same by exact L. unfold aremove. clear. induction (params_at h0 r) as [|e l IHl]; [reflexivity|]. cbn [filter existsb].
          destruct (str_eqb k (fst e)); cbn [negb orb]; [exact IHl|]. cbn [filter]. now rewrite IHl. }
  destruct (G (p_keys h r) h L A) as (h' & H & L' & E & P). exists h'. split; [exact H|]. split; [|auto]. rewrite P. unfold p_keys. clear.
  assert (W : forall l m : list (str * value), (forall e, In e l -> In e m) -> filter (fun e => negb (existsb (fun k => str_eqb k (fst e)) (map fst m))) l = []).
  { induction l as [|e l IH]; intros m S; [reflexivity|]. cbn [filter]. replace (existsb _ _) with true; [cbn; apply IH; intros; apply S; now right|].
    symmetry. apply existsb_exists. exists (fst e). split; [apply in_map, S; now left|apply str_eqb_refl]. }
  apply W. auto.
Qed.

(** ** Select *)
Definition selected (h : heap) (r : nat) (k : str) : value :=
  match stored h r k with Some v => match v with VNilRef => VNil | _ => v end | None => VNil end.
Lemma p_get_selected h r k : (forall v, stored h r k = Some v -> ~ is_array v) -> p_get h r k VNil = Ok (selected h r k).
Proof.
  intros A. unfold p_get, selected, stored in *. destruct (aget str_eqb k (params_at h r)) as [v|]; [|reflexivity].
  destruct v; cbn; try reflexivity. exfalso. eapply A; [reflexivity|]. eexists. reflexivity.
Qed.
Lemma select_ok h r keys : (r < length h)%nat -> (forall k v, In k keys -> stored h r k = Some v -> ~ is_array v) ->
  exists h', p_select h r keys = Ok (h', length h) /\ ext h h' /\ NoDup (p_keys h' (length h)) /\
    (forall k, stored h' (length h) k = if in_dec (list_eq_dec N.eq_dec) k keys then Some (selected h r k) else None).
Proof.
  intros L A. unfold p_select.
  assert (G : forall ks h0, (forall k, In k ks -> In k keys) -> ext h h0 -> (length h < length h0)%nat -> NoDup (p_keys h0 (length h)) ->
    exists h', foldR (fun h' k => do v <- p_get h' r k VNil; Ok (p_set h' (length h) k v)) ks h0 = Ok h' /\ ext h h' /\ NoDup (p_keys h' (length h)) /\
      (forall k, stored h' (length h) k = if in_dec (list_eq_dec N.eq_dec) k ks then Some (selected h r k) else stored h0 (length h) k)).
  { induction ks as [|k ks IH]; intros h0 I E Lo N; cbn [foldR].
    - exists h0. split; [reflexivity|]. split; [exact E|]. split; [exact N|]. intros k. destruct (in_dec _ _ _) as [[]|]; reflexivity.
    - pose proof E as [El Er].
      assert (Sr : forall k, stored h0 r k = stored h r k) by (intros k0; unfold stored; now rewrite Er).
      rewrite p_get_selected by (intros v; rewrite Sr; apply A, I; now left). cbn [bind].
      assert (Sel : selected h0 r k = selected h r k) by (unfold selected; now rewrite Sr). rewrite Sel.
      destruct (IH (p_set h0 (length h) k (selected h r k))) as (h' & H' & E' & N' & S').
      + intros k0 I0. apply I. now right.
      + apply ext_set; auto.
      + rewrite set_length by exact Lo. exact Lo.
      + unfold p_keys, p_set. rewrite put_same by exact Lo. now apply (aset_nodup str_eqb str_eqb_eq).
      + exists h'. split; [exact H'|]. split; [exact E'|]. split; [exact N'|]. intros k0. rewrite S'. rewrite stored_set, Nat.eqb_refl by exact Lo.
        destruct (in_dec (list_eq_dec N.eq_dec) k0 ks) as [I1|I1]; destruct (in_dec (list_eq_dec N.eq_dec) k0 (k :: ks)) as [I2|I2]; try reflexivity.
        * exfalso. apply I2. now right.
        * destruct (str_eqb k0 k) eqn:D; [apply str_eqb_eq in D; now subst|]. destruct I2 as [->|I2]; [now rewrite str_eqb_refl in D|contradiction].
        * destruct (str_eqb k0 k) eqn:D; [|reflexivity]. apply str_eqb_eq in D. exfalso. apply I2. left. now subst. }
  destruct (G keys (h ++ [[]])) as (h' & H & E & N & S).
  - auto.
  - apply ext_alloc.
  - rewrite app_length. cbn. lia.
  - unfold p_keys. rewrite at_new. constructor.
  - rewrite H. cbn [bind]. exists h'. split; [reflexivity|]. split; [exact E|]. split; [exact N|]. intros k. rewrite S. unfold stored at 1. now rewrite at_new.
Qed.
