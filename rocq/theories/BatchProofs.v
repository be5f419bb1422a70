(** Proofs about the concurrent parts of the tokenizer (C44, C45, C46). *)
From Verif Require Import Base BaseProofs SliceModel SliceProofs BpeSaveModel EncodingModel ProcessorModel
  BatchModel BatchSpec.
From Coq Require Import Permutation.
Open Scope Z_scope.

Lemma nth_error_upd {B} (l : list B) i j x :
  nth_error (upd l i x) j = if (j =? i)%nat then (if (i <? length l)%nat then Some x else None) else nth_error l j.
Proof.
  revert i j; induction l as [|y l IH]; intros [|i] [|j]; try reflexivity.
  - cbn. destruct (j =? i)%nat; reflexivity.
  - change (nth_error (upd l i x) j = if (j =? i)%nat then (if (i <? length l)%nat then Some x else None) else nth_error l j).
    apply IH.
Qed.

Lemma nth_error_upd_same {B} (l : list B) i x y :
  nth_error l i = Some y -> nth_error (upd l i x) i = Some x.
Proof.
  intros H. rewrite nth_error_upd, Nat.eqb_refl.
  assert ((i < length l)%nat) by (apply nth_error_Some; congruence).
  destruct (Nat.ltb_spec i (length l)); [reflexivity|lia].
Qed.

Lemma nth_error_upd_other {B} (l : list B) i j x :
  j <> i -> nth_error (upd l i x) j = nth_error l j.
Proof. intros H. rewrite nth_error_upd. destruct (Nat.eqb_spec j i); [contradiction|reflexivity]. Qed.

Lemma nth_error_ext' {B} (l l' : list B) :
  (forall i, nth_error l i = nth_error l' i) -> l = l'.
Proof.
  revert l'; induction l as [|x l IH]; intros [|y l'] H; try reflexivity.
  - specialize (H 0%nat). discriminate.
  - specialize (H 0%nat). discriminate.
  - f_equal.
    + specialize (H 0%nat). cbn in H. congruence.
    + apply IH. intros i. exact (H (S i)).
Qed.

(** ** EncodeBatch *)
Section Encode.
  Context {X A : Type} (encode : X -> res A) (zero : A) (inputs : list X).

  Definition returns (x : X) : Prop := encode x = Err \/ exists a, encode x = Ok a.

  Definition pc_ok (s : ebatch) (i : nat) (x : X) (p : @epc A) : Prop :=
    match p with
    | EStart => True
    | EMade a => encode x = Ok a
    | ELocked a => encode x = Ok a /\ eb_lock s = Some i
    | EStored => (exists a, encode x = Ok a /\ nth_error (eb_out s) i = Some a) /\ eb_lock s = Some i
    | EEnded => exists a, encode x = Ok a /\ nth_error (eb_out s) i = Some a
    | EFailed => encode x = Err /\ eb_err s = true
    end.

  Record einv (s : @ebatch A) : Prop := {
    ei_crash : eb_crash s = false;
    ei_out : length (eb_out s) = length inputs;
    ei_len : length (eb_pc s) = length inputs;
    ei_pc : forall i x p, nth_error inputs i = Some x -> nth_error (eb_pc s) i = Some p -> pc_ok s i x p;
    ei_lock : forall i, eb_lock s = Some i ->
        (exists a, nth_error (eb_pc s) i = Some (ELocked a)) \/ nth_error (eb_pc s) i = Some EStored;
    ei_err : eb_err s = true -> exists x, In x inputs /\ encode x = Err
  }.

  Lemma nth_error_const {Y Z} (z : Z) (l : list Y) i p :
    nth_error (map (fun _ => z) l) i = Some p -> p = z.
  Proof.
    intros H. apply nth_error_In in H. apply in_map_iff in H as [y [E _]]. congruence.
  Qed.

  Lemma einv_start : einv (estart zero inputs).
  Proof.
    constructor; cbn; try rewrite map_length; try reflexivity; try discriminate.
    intros i x p _ H. apply nth_error_const in H. subst. exact I.
  Qed.

  Lemma upd_nth_split {B} (l : list B) i j x p :
    nth_error (upd l i x) j = Some p -> (j = i /\ p = x) \/ (j <> i /\ nth_error l j = Some p).
  Proof.
    rewrite nth_error_upd. destruct (Nat.eqb_spec j i).
    - destruct (i <? length l)%nat; intros H; [left|discriminate]. split; congruence.
    - intros H. right. auto.
  Qed.

  Lemma einv_step s i s' :
    (forall x, In x inputs -> returns x) ->
    einv s -> estep encode inputs s i = Some s' -> einv s'.
  Proof.
    intros R [C O L P K E]. unfold estep. rewrite C.
    destruct (nth_error inputs i) as [x|] eqn:Hx; [|discriminate].
    destruct (nth_error (eb_pc s) i) as [p|] eqn:Hp; [|discriminate].
    pose proof (P i x p Hx Hp) as Pi.
    destruct p as [|a|a| | |]; try discriminate.
    - (* EStart *)
      destruct (R x (nth_error_In _ _ Hx)) as [Ex|[a Ex]]; rewrite Ex; intros [= <-].
      + constructor; cbn; try rewrite upd_length; auto.
        * intros j y q Hy Hq. apply upd_nth_split in Hq as [[-> ->]|[N Hq]].
          -- cbn. split; [|reflexivity]. congruence.
          -- specialize (P j y q Hy Hq). destruct q; cbn in *; intuition.
        * intros j Hj. destruct (K j Hj) as [[a Ha]|Ha].
          -- left. exists a. rewrite nth_error_upd_other; [exact Ha|]. intros ->. congruence.
          -- right. rewrite nth_error_upd_other; [exact Ha|]. intros ->. congruence.
        * intros _. exists x. split; [eapply nth_error_In; eassumption|exact Ex].
      + constructor; cbn; try rewrite upd_length; auto.
        * intros j y q Hy Hq. apply upd_nth_split in Hq as [[-> ->]|[N Hq]].
          -- cbn. congruence.
          -- specialize (P j y q Hy Hq). destruct q; cbn in *; intuition.
        * intros j Hj. destruct (K j Hj) as [[b Ha]|Ha].
          -- left. exists b. rewrite nth_error_upd_other; [exact Ha|]. intros ->. congruence.
          -- right. rewrite nth_error_upd_other; [exact Ha|]. intros ->. congruence.
    - (* EMade *)
      destruct (eb_lock s) as [h|] eqn:Hl; [discriminate|]. intros [= <-].
      constructor; cbn; try rewrite upd_length; auto.
      + intros j y q Hy Hq. apply upd_nth_split in Hq as [[-> ->]|[N Hq]].
        * cbn in *. split; [congruence|reflexivity].
        * specialize (P j y q Hy Hq). destruct q; cbn in *; intuition congruence.
      + intros j [= <-]. left. exists a. eapply nth_error_upd_same; eassumption.
    - (* ELocked *)
      intros [= <-]. destruct Pi as [Pi Li].
      constructor; cbn; try rewrite upd_length; auto.
      + intros j y q Hy Hq. apply upd_nth_split in Hq as [[-> ->]|[N Hq]].
        * cbn. split; [|assumption]. exists a. split; [congruence|].
          rewrite nth_error_upd, Nat.eqb_refl.
          assert ((i < length inputs)%nat) by (apply nth_error_Some; congruence).
          destruct (Nat.ltb_spec i (length (eb_out s))); [reflexivity|lia].
        * specialize (P j y q Hy Hq). destruct q; cbn in *; try exact P.
          -- destruct P as [_ P]. congruence.
          -- rewrite nth_error_upd_other by exact N. exact P.
      + intros j Hj. right. assert (j = i) by congruence. subst j. eapply nth_error_upd_same; eassumption.
    - (* EStored *)
      intros [= <-]. destruct Pi as [Pi Li].
      constructor; cbn; try rewrite upd_length; auto; try discriminate.
      intros j y q Hy Hq. apply upd_nth_split in Hq as [[-> ->]|[N Hq]].
      + cbn. assert (y = x) by congruence. subst. exact Pi.
      + specialize (P j y q Hy Hq). destruct q; cbn in *; try exact P.
        * destruct P as [_ P]. congruence.
        * destruct P as [_ P]. congruence.
  Qed.

  Lemma einv_run sched : forall s s',
    (forall x, In x inputs -> returns x) ->
    einv s -> erun encode inputs sched s = Some s' -> einv s'.
  Proof.
    induction sched as [|i sched IH]; intros s s' R I; cbn.
    - intros [= <-]. exact I.
    - destruct (estep encode inputs s i) as [s1|] eqn:E; [|discriminate].
      apply IH; [exact R|]. eapply einv_step; eassumption.
  Qed.

  Lemma mapR_all_ok (l : list X) (out : list A) :
    length out = length l ->
    (forall i x, nth_error l i = Some x -> exists a, encode x = Ok a /\ nth_error out i = Some a) ->
    mapR encode l = Ok out.
  Proof.
    revert out; induction l as [|x l IH]; intros [|b out] HL H; try discriminate; [reflexivity|].
    cbn. destruct (H 0%nat x eq_refl) as [a [E1 E2]]. cbn in E2. injection E2 as ->.
    rewrite E1. cbn. rewrite (IH out); [reflexivity|cbn in HL; lia|].
    intros i y Hy. exact (H (S i) y Hy).
  Qed.

  Lemma mapR_some_err (l : list X) :
    (forall x, In x l -> returns x) -> (exists x, In x l /\ encode x = Err) ->
    mapR encode l = Err.
  Proof.
    induction l as [|x l IH]; intros R [y [Hy E]]; [destruct Hy|].
    cbn. destruct (R x (or_introl eq_refl)) as [Ex|[a Ex]]; rewrite Ex; [reflexivity|]. cbn.
    rewrite IH; [reflexivity| |].
    - intros z Hz. apply R. now right.
    - exists y. split; [|exact E]. destruct Hy as [->|Hy]; [congruence|exact Hy].
  Qed.

  Lemma ewait_spec s r :
    (forall x, In x inputs -> returns x) ->
    einv s -> ewait s = Some r -> r = mapR encode inputs.
  Proof.
    intros R [C O L P K E]. unfold ewait. rewrite C.
    destruct (forallb efinished (eb_pc s)) eqn:F; [|discriminate].
    destruct (eb_err s) eqn:Er; intros [= <-].
    - symmetry. apply mapR_some_err; [exact R|]. apply E. reflexivity.
    - symmetry. apply mapR_all_ok; [exact O|].
      intros i x Hx.
      assert (Hi : (i < length (eb_pc s))%nat) by (rewrite L; apply nth_error_Some; congruence).
      destruct (nth_error (eb_pc s) i) as [p|] eqn:Hp;
        [|apply nth_error_Some in Hi; congruence].
      specialize (P i x p Hx Hp).
      rewrite forallb_forall in F. specialize (F p (nth_error_In _ _ Hp)).
      destruct p; cbn in F; try discriminate; cbn in P.
      + exact P.
      + destruct P. congruence.
  Qed.

  (** Progress: while some worker has not returned, some worker can take a step. *)
  Lemma einv_progress s :
    einv s -> ewait s = None -> exists i s', estep encode inputs s i = Some s'.
  Proof.
    intros [C O L P K E]. unfold ewait. rewrite C.
    destruct (forallb efinished (eb_pc s)) eqn:F; [destruct (eb_err s); discriminate|]. intros _.
    assert (G : exists i p, nth_error (eb_pc s) i = Some p /\ efinished p = false).
    { clear - F. induction (eb_pc s) as [|p l IH]; [discriminate|].
      cbn in F. destruct (efinished p) eqn:Fp.
      - destruct (IH F) as [i [q H]]. exists (S i), q. exact H.
      - exists 0%nat, p. auto. }
    destruct G as [i [p [Hp Fp]]].
    assert (X1 : forall j q, nth_error (eb_pc s) j = Some q -> exists y, nth_error inputs j = Some y).
    { intros j q Hq. destruct (nth_error inputs j) eqn:Z; [eauto|].
      apply nth_error_None in Z. assert ((j < length (eb_pc s))%nat) by (apply nth_error_Some; congruence). lia. }
    destruct (X1 i p Hp) as [x Hx].
    destruct (eb_lock s) as [h|] eqn:Hl.
    - destruct (K h eq_refl) as [[a Ha]|Ha]; exists h; unfold estep; rewrite C.
      + destruct (X1 _ _ Ha) as [y ->]. rewrite Ha. eauto.
      + destruct (X1 _ _ Ha) as [y ->]. rewrite Ha. eauto.
    - exists i. unfold estep. rewrite C, Hx, Hp.
      destruct p; cbn in Fp; try discriminate.
      + destruct (encode x); eauto.
      + rewrite Hl. eauto.
      + eauto.
      + eauto.
  Qed.

  Definition erank (p : @epc A) : nat :=
    match p with EStart => 4 | EMade _ => 3 | ELocked _ => 2 | EStored => 1 | _ => 0 end%nat.
  Definition emeasure (s : @ebatch A) : nat :=
    (if eb_crash s then 0 else 1) + fold_right (fun p m => erank p + m)%nat 0%nat (eb_pc s).

  Lemma sum_upd (l : list (@epc A)) i p q :
    nth_error l i = Some p ->
    (fold_right (fun p m => erank p + m) 0 (upd l i q) + erank p
      = fold_right (fun p m => erank p + m) 0 l + erank q)%nat.
  Proof.
    revert i; induction l as [|y l IH]; intros [|i] H; try discriminate; cbn in *.
    - injection H as ->. lia.
    - specialize (IH i H). lia.
  Qed.

  Lemma emeasure_step s i s' :
    estep encode inputs s i = Some s' -> (emeasure s' < emeasure s)%nat.
  Proof.
    unfold estep, emeasure. destruct (eb_crash s); [discriminate|].
    destruct (nth_error inputs i) as [x|]; [|discriminate].
    destruct (nth_error (eb_pc s) i) as [p|] eqn:Hp; [|discriminate].
    pose proof (fun q => sum_upd (eb_pc s) i p q Hp) as SU.
    destruct p as [|a|a| | |]; try discriminate.
    - destruct (encode x) as [a| | | |]; intros [= <-]; cbn [eb_crash eb_pc]; try lia.
      + specialize (SU (EMade a)). cbn [erank] in SU. lia.
      + specialize (SU EFailed). cbn [erank] in SU. lia.
    - destruct (eb_lock s); [discriminate|]. intros [= <-]; cbn [eb_crash eb_pc].
      specialize (SU (ELocked a)). cbn [erank] in SU. lia.
    - intros [= <-]; cbn [eb_crash eb_pc]. specialize (SU EStored). cbn [erank] in SU. lia.
    - intros [= <-]; cbn [eb_crash eb_pc]. specialize (SU EEnded). cbn [erank] in SU. lia.
  Qed.

  Lemma emeasure_run sched : forall s s',
    erun encode inputs sched s = Some s' -> (length sched + emeasure s' <= emeasure s)%nat.
  Proof.
    induction sched as [|i sched IH]; intros s s'; cbn.
    - intros [= <-]. lia.
    - destruct (estep encode inputs s i) as [s1|] eqn:E; [|discriminate].
      intros H. apply IH in H. apply emeasure_step in E. lia.
  Qed.

  Lemma emeasure_start : emeasure (estart zero inputs) = (1 + 4 * length inputs)%nat.
  Proof.
    unfold emeasure, estart. cbn [eb_crash eb_pc]. f_equal.
    induction inputs as [|x l IH]; [reflexivity|]. cbn [map fold_right erank length]. rewrite IH. lia.
  Qed.

  Lemma erun_app sched1 sched2 : forall s,
    erun encode inputs (sched1 ++ sched2) s
      = match erun encode inputs sched1 s with Some s' => erun encode inputs sched2 s' | None => None end.
  Proof.
    induction sched1 as [|i l IH]; intros s; [reflexivity|]. cbn.
    destruct (estep encode inputs s i); [apply IH|reflexivity].
  Qed.

  (** Every run can be continued until all workers have returned. *)
  Lemma ecomplete : (forall x, In x inputs -> returns x) -> forall n s,
    (emeasure s <= n)%nat -> einv s ->
    exists more s', erun encode inputs more s = Some s' /\ ewait s' <> None.
  Proof.
    intros R n. induction n as [|n IH]; intros s M I.
    - destruct (ewait s) eqn:W.
      + exists [], s. split; [reflexivity|congruence].
      + destruct (einv_progress s I W) as [i [s' E]]. apply emeasure_step in E. lia.
    - destruct (ewait s) eqn:W.
      + exists [], s. split; [reflexivity|congruence].
      + destruct (einv_progress s I W) as [i [s' E]].
        destruct (IH s') as [more [s2 [H1 H2]]].
        * apply emeasure_step in E. lia.
        * eapply einv_step; eassumption.
        * exists (i :: more), s2. cbn. rewrite E. auto.
  Qed.
End Encode.

Lemma encode_batch_spec {X} (encode : X -> res Encoding) p inputs sched r :
  (forall x, In x inputs -> encode x = Err \/ exists e, encode x = Ok e) ->
  encode_batch encode p inputs sched = Some r ->
  r = (do l <- mapR encode inputs; batch_padded p l).
Proof.
  intros R. unfold encode_batch.
  destruct (erun encode inputs sched (estart zero_enc inputs)) as [s|] eqn:E; [|discriminate].
  destruct (ewait s) as [q|] eqn:W; [|discriminate]. intros [= <-].
  assert (I : einv encode inputs s) by (eapply einv_run; eauto using einv_start).
  rewrite (ewait_spec encode inputs s q); auto.
Qed.

Lemma encode_batch_live {X} (encode : X -> res Encoding) inputs sched s :
  (forall x, In x inputs -> encode x = Err \/ exists e, encode x = Ok e) ->
  erun encode inputs sched (estart zero_enc inputs) = Some s ->
  (length sched <= 4 * length inputs)%nat /\
  exists more, forall p, exists r, encode_batch encode p inputs (sched ++ more) = Some r.
Proof.
  intros R E.
  assert (I : einv encode inputs s) by (eapply einv_run; eauto using einv_start).
  split.
  - apply emeasure_run in E. rewrite (emeasure_start encode) in E.
    assert (1 <= emeasure s)%nat by (unfold emeasure; rewrite (ei_crash _ _ _ I); lia). lia.
  - destruct (ecomplete encode inputs R (emeasure s) s (le_n _) I) as [more [s' [H1 H2]]].
    exists more. intros p. unfold encode_batch. rewrite erun_app, E, H1.
    destruct (ewait s'); [eauto|congruence].
Qed.

(** A panic in one worker ends the process whatever the others do. *)
Lemma erun_err_crash {X A} (encode : X -> res A) inputs sched : forall s s',
  erun encode inputs sched s = Some s' -> eb_crash s = true -> sched = [] /\ s' = s.
Proof.
  destruct sched as [|i sched]; intros s s' H C; cbn in H.
  - injection H as <-. auto.
  - unfold estep in H. rewrite C in H. discriminate.
Qed.

(** ** DecodeBatch *)
Section Decode.
  Context {X A : Type} (decode : X -> A) (inputs : list X).
  Local Notation n := (length inputs).

  Definition shows (idx : list nat) (out : list A) : Prop :=
    Forall2 (fun i a => exists x, nth_error inputs i = Some x /\ a = decode x) idx out.

  Definition ended_only (s : @dbatch A) (idx : list nat) : Prop :=
    NoDup idx /\ forall i, In i idx -> nth_error (db_pc s) i = Some DEnded.

  Record dinv (s : @dbatch A) : Prop := {
    di_len : length (db_pc s) = n;
    di_out : exists idx, ended_only s idx /\ shows idx (db_out s);
    di_pc : forall i x p, nth_error inputs i = Some x -> nth_error (db_pc s) i = Some p ->
      match p with
      | DMade a => a = decode x
      | DRead a seen => a = decode x /\ exists idx, ended_only s idx /\ shows idx seen
      | _ => True
      end;
    di_some : (exists i, nth_error (db_pc s) i = Some DEnded) -> db_out s <> []
  }.

  Lemma dinv_start : dinv (dstart inputs).
  Proof.
    constructor; cbn.
    - apply map_length.
    - exists []. split; [split; [constructor|intros i []]|constructor].
    - intros i x p _ H. apply nth_error_const in H. subst. exact I.
    - intros [i H]. apply nth_error_const in H. discriminate.
  Qed.

  Lemma ended_upd out pc i p idx :
    nth_error pc i <> Some DEnded ->
    ended_only (DB out pc) idx -> forall out', ended_only (DB out' (upd pc i p)) idx.
  Proof.
    intros NE [ND H] out'. split; [exact ND|]. intros j Hj. cbn.
    specialize (H j Hj). cbn in H. rewrite nth_error_upd_other; [exact H|]. intros ->. contradiction.
  Qed.

  Lemma dinv_step s i s' : dinv s -> dstep decode inputs s i = Some s' -> dinv s'.
  Proof.
    destruct s as [out pc]. intros [L [idx [E O]] P S0]. unfold dstep. cbn [db_pc db_out] in *.
    destruct (nth_error inputs i) as [x|] eqn:Hx; [|discriminate].
    destruct (nth_error pc i) as [p|] eqn:Hp; [|discriminate].
    pose proof (P i x p Hx Hp) as Pi.
    destruct p as [|a|a seen|]; try discriminate; intros [= <-].
    - constructor; cbn [db_pc db_out]; try rewrite upd_length; auto.
      + exists idx. split; [|exact O]. eapply ended_upd; [congruence|exact E].
      + intros j y q Hy Hq. apply upd_nth_split in Hq as [[-> ->]|[N Hq]]; [congruence|].
        specialize (P j y q Hy Hq). destruct q; auto. destruct P as [P [ix [E1 O1]]].
        split; [exact P|]. exists ix. split; [|exact O1]. eapply ended_upd; [congruence|exact E1].
      + intros [j Hj]. apply S0. apply upd_nth_split in Hj as [[_ D]|[_ D]]; [discriminate|eauto].
    - constructor; cbn [db_pc db_out]; try rewrite upd_length; auto.
      + exists idx. split; [|exact O]. eapply ended_upd; [congruence|exact E].
      + intros j y q Hy Hq. apply upd_nth_split in Hq as [[-> ->]|[N Hq]].
        * split; [congruence|]. exists idx. split; [|exact O]. eapply ended_upd; [congruence|exact E].
        * specialize (P j y q Hy Hq). destruct q; auto. destruct P as [P [ix [E1 O1]]].
          split; [exact P|]. exists ix. split; [|exact O1]. eapply ended_upd; [congruence|exact E1].
      + intros [j Hj]. apply S0. apply upd_nth_split in Hj as [[_ D]|[_ D]]; [discriminate|eauto].
    - destruct Pi as [-> [ix [[ND E1] O1]]]. cbn [db_pc] in E1.
      constructor; cbn [db_pc db_out]; try rewrite upd_length; auto.
      + exists (ix ++ [i])%list. split; [split|].
        * apply (Permutation_NoDup (Permutation_cons_append ix i)).
          constructor; [|exact ND]. intros Hi. apply E1 in Hi. congruence.
        * intros j Hj. cbn. rewrite nth_error_upd. apply in_app_or in Hj.
          destruct (Nat.eqb_spec j i) as [->|N].
          -- assert ((i < length pc)%nat) by (apply nth_error_Some; congruence).
             destruct (Nat.ltb_spec i (length pc)); [reflexivity|lia].
          -- destruct Hj as [Hj|[Hj|[]]]; [exact (E1 j Hj)|congruence].
        * apply Forall2_app; [exact O1|]. constructor; [eauto|constructor].
      + intros j y q Hy Hq. apply upd_nth_split in Hq as [[-> ->]|[N Hq]]; [exact I|].
        specialize (P j y q Hy Hq). destruct q; auto. destruct P as [P [ix' [E1' O1']]].
        split; [exact P|]. exists ix'. split; [|exact O1']. eapply ended_upd; [congruence|exact E1'].
      + intros _ H. symmetry in H. now apply app_cons_not_nil in H.
  Qed.

  Lemma dinv_run sched : forall s s', dinv s -> drun decode inputs sched s = Some s' -> dinv s'.
  Proof.
    induction sched as [|i sched IH]; intros s s' I; cbn.
    - intros [= <-]. exact I.
    - destruct (dstep decode inputs s i) as [s1|] eqn:E; [|discriminate].
      apply IH. eapply dinv_step; eassumption.
  Qed.

  Lemma shows_map idx out :
    shows idx out <-> exists xs, Forall2 (fun i x => nth_error inputs i = Some x) idx xs /\ out = map decode xs.
  Proof.
    unfold shows. split.
    - induction 1 as [|i a idx out [x [H1 H2]] F [xs [IH1 IH2]]].
      + exists []. split; [constructor|reflexivity].
      + exists (x :: xs). split; [constructor; assumption|]. cbn. congruence.
    - intros [xs [F ->]]. induction F; cbn; constructor; eauto.
  Qed.

  Lemma decode_batch_sound sched out :
    decode_batch decode inputs sched = Some out ->
    (inputs <> [] -> out <> []) /\
    exists idx xs, distinct_positions n idx /\ Forall2 (fun i x => nth_error inputs i = Some x) idx xs /\ out = map decode xs.
  Proof.
    unfold decode_batch. destruct (drun decode inputs sched (dstart inputs)) as [s|] eqn:E; [|discriminate].
    destruct (forallb _ (db_pc s)) eqn:F; [|discriminate]. intros [= <-].
    destruct (dinv_run sched _ s dinv_start E) as [L [idx [[ND EN] O]] P S0]. split.
    - intros NE. apply S0. exists 0%nat.
      destruct (db_pc s) as [|p l] eqn:Hp.
      + destruct inputs; [congruence|discriminate].
      + cbn in F. apply andb_true_iff in F as [F _]. destruct p; try discriminate. reflexivity.
    - apply shows_map in O as [xs [F1 F2]]. exists idx, xs. split; [|auto].
      split; [exact ND|]. intros i Hi. rewrite <- L. apply nth_error_Some. rewrite (EN i Hi). discriminate.
  Qed.

  (** Schedules reaching every such result. *)
  Lemma drun_app s1 s2 : forall s,
    drun decode inputs (s1 ++ s2) s
      = match drun decode inputs s1 s with Some s' => drun decode inputs s2 s' | None => None end.
  Proof.
    induction s1 as [|i l IH]; intros s; [reflexivity|]. cbn.
    destruct (dstep decode inputs s i); [apply IH|reflexivity].
  Qed.

  Definition val (x0 : X) (i : nat) : A := decode (nth i inputs x0).

  Lemma nth_error_val (x0 : X) i : (i < n)%nat -> nth_error inputs i = Some (nth i inputs x0).
  Proof. apply nth_error_nth'. Qed.

  Lemma step_start x0 out pc i :
    (i < n)%nat -> nth_error pc i = Some DStart ->
    drun decode inputs [i; i] (DB out pc) = Some (DB out (upd (upd pc i (DMade (val x0 i))) i (DRead (val x0 i) out))).
  Proof.
    intros Hi Hp. cbn. unfold dstep. cbn [db_pc db_out].
    rewrite (nth_error_val x0 i Hi), Hp. cbn [db_pc db_out].
    rewrite (nth_error_upd_same pc i _ _ Hp). reflexivity.
  Qed.

  Lemma step_write (x0 : X) out pc i a seen :
    (i < n)%nat -> nth_error pc i = Some (DRead a seen) ->
    drun decode inputs [i] (DB out pc) = Some (DB (seen ++ [a])%list (upd pc i DEnded)).
  Proof.
    intros Hi Hp. cbn. unfold dstep. cbn [db_pc db_out].
    rewrite (nth_error_val x0 i Hi), Hp. reflexivity.
  Qed.

  Lemma phase_read x0 l : forall out pc,
    NoDup l -> (forall i, In i l -> (i < n)%nat) -> (forall i, In i l -> nth_error pc i = Some DStart) ->
    exists pc', drun decode inputs (flat_map (fun i => [i; i]) l) (DB out pc) = Some (DB out pc') /\
      length pc' = length pc /\
      (forall i, In i l -> nth_error pc' i = Some (DRead (val x0 i) out)) /\
      (forall i, ~ In i l -> nth_error pc' i = nth_error pc i).
  Proof.
    induction l as [|i l IH]; intros out pc ND B S0.
    - exists pc. cbn. repeat split; auto. intros i [].
    - inversion ND as [|i' l' NI ND']; subst.
      change (flat_map (fun i => [i; i]) (i :: l)) with ([i; i] ++ flat_map (fun i => [i; i]) l)%list.
      rewrite drun_app, (step_start x0); [|apply B; now left|apply S0; now left].
      set (pc1 := upd (upd pc i (DMade (val x0 i))) i (DRead (val x0 i) out)).
      assert (H0 : forall j, j <> i -> nth_error pc1 j = nth_error pc j).
      { intros j N. unfold pc1. rewrite !nth_error_upd_other by exact N. reflexivity. }
      assert (H1 : nth_error pc1 i = Some (DRead (val x0 i) out)).
      { unfold pc1. eapply nth_error_upd_same. eapply nth_error_upd_same. apply S0. now left. }
      destruct (IH out pc1 ND') as [pc' [R [L [P1 P2]]]].
      + intros j Hj. apply B. now right.
      + intros j Hj. rewrite H0 by (intros ->; contradiction). apply S0. now right.
      + exists pc'. split; [exact R|]. split; [rewrite L; unfold pc1; now rewrite !upd_length|]. split.
        * intros j [->|Hj]; [|exact (P1 j Hj)]. rewrite P2 by exact NI. exact H1.
        * intros j Hj. cbn in Hj. rewrite P2 by tauto. apply H0. intros ->. tauto.
  Qed.

  Lemma phase_write (x0 : X) l : forall out pc,
    NoDup l -> (forall i, In i l -> (i < n)%nat) ->
    (forall i, In i l -> exists a seen, nth_error pc i = Some (DRead a seen)) ->
    exists out' pc', drun decode inputs l (DB out pc) = Some (DB out' pc') /\
      length pc' = length pc /\
      (forall i, In i l -> nth_error pc' i = Some DEnded) /\
      (forall i, ~ In i l -> nth_error pc' i = nth_error pc i).
  Proof.
    induction l as [|i l IH]; intros out pc ND B S0.
    - exists out, pc. cbn. repeat split; auto. intros i [].
    - inversion ND as [|i' l' NI ND']; subst.
      destruct (S0 i (or_introl eq_refl)) as [a [seen Hp]].
      change (i :: l) with ([i] ++ l)%list.
      rewrite drun_app, (step_write x0 out pc i a seen); [|apply B; now left|exact Hp].
      destruct (IH (seen ++ [a])%list (upd pc i DEnded) ND') as [out' [pc' [R [L [P1 P2]]]]].
      + intros j Hj. apply B. now right.
      + intros j Hj. rewrite nth_error_upd_other by (intros ->; contradiction). apply S0. now right.
      + exists out', pc'. split; [exact R|]. split; [rewrite L; now rewrite upd_length|]. split.
        * intros j [->|Hj]; [|exact (P1 j Hj)]. rewrite P2 by exact NI. eapply nth_error_upd_same. exact Hp.
        * intros j Hj. cbn in Hj. rewrite P2 by tauto. apply nth_error_upd_other. intros ->. tauto.
  Qed.

  Lemma phase_seq x0 l : forall out pc,
    NoDup l -> (forall i, In i l -> (i < n)%nat) -> (forall i, In i l -> nth_error pc i = Some DStart) ->
    exists pc', drun decode inputs (flat_map (fun i => [i; i; i]) l) (DB out pc)
        = Some (DB (out ++ map (val x0) l)%list pc') /\
      length pc' = length pc /\
      (forall i, In i l -> nth_error pc' i = Some DEnded) /\
      (forall i, ~ In i l -> nth_error pc' i = nth_error pc i).
  Proof.
    induction l as [|i l IH]; intros out pc ND B S0.
    - exists pc. cbn. rewrite app_nil_r. repeat split; auto. intros i [].
    - inversion ND as [|i' l' NI ND']; subst.
      change (flat_map (fun i => [i; i; i]) (i :: l)) with ([i; i] ++ [i] ++ flat_map (fun i => [i; i; i]) l)%list.
      rewrite drun_app, (step_start x0); [|apply B; now left|apply S0; now left].
      set (pc1 := upd (upd pc i (DMade (val x0 i))) i (DRead (val x0 i) out)).
      assert (H0 : forall j, j <> i -> nth_error pc1 j = nth_error pc j).
      { intros j N. unfold pc1. rewrite !nth_error_upd_other by exact N. reflexivity. }
      assert (H1 : nth_error pc1 i = Some (DRead (val x0 i) out)).
      { unfold pc1. eapply nth_error_upd_same. eapply nth_error_upd_same. apply S0. now left. }
      rewrite drun_app, (step_write x0 out pc1 i _ _ (B i (or_introl eq_refl)) H1).
      destruct (IH (out ++ [val x0 i])%list (upd pc1 i DEnded) ND') as [pc' [R [L [P1 P2]]]].
      + intros j Hj. apply B. now right.
      + intros j Hj. rewrite nth_error_upd_other by (intros ->; contradiction).
        rewrite H0 by (intros ->; contradiction). apply S0. now right.
      + exists pc'. split; [rewrite R; cbn [map]; now rewrite <- app_assoc|].
        split; [rewrite L; unfold pc1; now rewrite !upd_length|]. split.
        * intros j [->|Hj]; [|exact (P1 j Hj)]. rewrite P2 by exact NI. eapply nth_error_upd_same. exact H1.
        * intros j Hj. cbn in Hj. rewrite P2 by tauto. rewrite nth_error_upd_other by (intros ->; tauto).
          apply H0. intros ->. tauto.
  Qed.

  Lemma decode_batch_reach idx xs :
    idx <> [] -> distinct_positions n idx ->
    Forall2 (fun i x => nth_error inputs i = Some x) idx xs ->
    exists sched, decode_batch decode inputs sched = Some (map decode xs).
  Proof.
    intros NE [ND B] F. destruct idx as [|i0 rest]; [congruence|]. clear NE.
    assert (Hi0 : (i0 < n)%nat) by (apply B; now left).
    destruct inputs as [|x0 inp0] eqn:HI; [cbn in Hi0; lia|]. rewrite <- HI in *. clear HI inp0.
    inversion ND as [|a b NI ND']; subst.
    set (others := filter (fun j => negb (existsb (Nat.eqb j) (i0 :: rest))) (seq 0 n)).
    assert (OI : forall j, In j others <-> (j < n)%nat /\ ~ In j (i0 :: rest)).
    { intros j. unfold others. rewrite filter_In, in_seq, negb_true_iff. split.
      - intros [H1 H2]. split; [lia|]. intros H3.
        assert (existsb (Nat.eqb j) (i0 :: rest) = true); [|congruence].
        apply existsb_exists. exists j. split; [exact H3|apply Nat.eqb_refl].
      - intros [H1 H2]. split; [lia|]. destruct (existsb (Nat.eqb j) (i0 :: rest)) eqn:E; [|reflexivity].
        apply existsb_exists in E as [k [Hk E]]. apply Nat.eqb_eq in E. subst. contradiction. }
    assert (OD : NoDup others) by (apply NoDup_filter, seq_NoDup).
    assert (Start : forall i, (i < n)%nat -> nth_error (db_pc (@dstart X A inputs)) i = Some DStart).
    { intros i Hi. cbn. rewrite nth_error_map, (nth_error_val x0 i Hi). reflexivity. }
    destruct (phase_read x0 (i0 :: others) [] (db_pc (dstart inputs))) as [pc1 [R1 [L1 [P1 Q1]]]].
    { constructor; [|exact OD]. rewrite OI. intros [_ H]. apply H. now left. }
    { intros i [<-|H]; [exact Hi0|]. now apply OI in H. }
    { intros i [<-|H]; apply Start; [exact Hi0|]. now apply OI in H. }
    destruct (phase_write x0 others [] pc1) as [out2 [pc2 [R2 [L2 [P2 Q2]]]]].
    { exact OD. }
    { intros i H. now apply OI in H. }
    { intros i H. exists (val x0 i), []. apply P1. now right. }
    assert (N0 : ~ In i0 others) by (rewrite OI; intros [_ H]; apply H; now left).
    assert (H3 : nth_error pc2 i0 = Some (DRead (val x0 i0) [])).
    { rewrite Q2 by exact N0. apply P1. now left. }
    pose proof (step_write x0 out2 pc2 i0 _ _ Hi0 H3) as R3. cbn [app] in R3.
    destruct (phase_seq x0 rest [val x0 i0] (upd pc2 i0 DEnded)) as [pc4 [R4 [L4 [P4 Q4]]]].
    { exact ND'. }
    { intros i H. apply B. now right. }
    { intros i H. assert (i <> i0) by (intros ->; contradiction).
      assert (~ In i others) by (rewrite OI; intros [_ Z]; apply Z; now right).
      rewrite nth_error_upd_other, Q2, Q1 by (cbn; intuition). apply Start. apply B. now right. }
    exists (flat_map (fun i => [i; i]) (i0 :: others) ++ others ++ [i0] ++ flat_map (fun i => [i; i; i]) rest)%list.
    unfold decode_batch.
    change (dstart inputs) with (@DB A [] (db_pc (@dstart X A inputs))).
    rewrite drun_app, R1. cbv beta iota. rewrite drun_app, R2. cbv beta iota.
    rewrite drun_app, R3. cbv beta iota. rewrite R4. cbn [db_pc db_out].
    assert (LEN : length pc4 = n).
    { rewrite L4, upd_length, L2, L1. cbn. apply map_length. }
    replace (forallb _ pc4) with true.
    - f_equal. change ([val x0 i0] ++ map (val x0) rest)%list with (map (val x0) (i0 :: rest)).
      clear - F B. remember (i0 :: rest) as idx. clear Heqidx.
      induction F as [|i x idx xs H F IH]; [reflexivity|]. cbn [map]. rewrite IH by (intros; apply B; now right). f_equal.
      unfold val. f_equal. symmetry. rewrite (nth_error_nth' inputs x0) in H by (apply B; now left). congruence.
    - symmetry. apply forallb_forall. intros p Hp. apply In_nth_error in Hp as [j Hj].
      assert (Hn : (j < n)%nat) by (rewrite <- LEN; apply nth_error_Some; congruence).
      destruct (in_dec Nat.eq_dec j rest) as [I1|I1].
      + rewrite (P4 j I1) in Hj. injection Hj as <-. reflexivity.
      + rewrite (Q4 j I1) in Hj. destruct (Nat.eq_dec j i0) as [->|N1].
        * rewrite (nth_error_upd_same pc2 i0 _ _ H3) in Hj. injection Hj as <-. reflexivity.
        * rewrite nth_error_upd_other in Hj by exact N1.
          rewrite P2 in Hj; [injection Hj as <-; reflexivity|]. apply OI. split; [exact Hn|]. cbn. intuition.
  Qed.
End Decode.
