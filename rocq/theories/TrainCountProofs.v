(** Proofs about the word counts of Train (C46). *)
From Verif Require Import Base BaseProofs SliceModel SliceProofs BpeSaveModel EncodingModel ProcessorModel
  BatchModel BatchSpec BatchProofs.
Open Scope Z_scope.

(** ** Dictionaries *)
Definition getc (d : list (str * Z)) (w : str) : Z := match aget str_eqb w d with Some c => c | None => 0 end.
Definition positive_values (d : list (str * Z)) : Prop := forall w c, aget str_eqb w d = Some c -> 0 < c.
Definition tally (m : list (str * Z)) (w : str) : Z :=
  zsum (map (fun e => if str_eqb w (fst e) then snd e else 0) m).

Lemma counts_are_getc d count :
  positive_values d -> (forall w, getc d w = count w) -> counts_are d count.
Proof.
  intros P H w. specialize (H w). specialize (P w). unfold getc in H.
  destruct (aget str_eqb w d) as [c|].
  - specialize (P c eq_refl). subst. destruct (Z.eqb_spec (count w) 0); [lia|reflexivity].
  - rewrite <- H. reflexivity.
Qed.

Lemma getc_aset d k v w : getc (aset str_eqb k v d) w = if str_eqb w k then v else getc d w.
Proof. unfold getc. rewrite (ag_aset str_eqb str_eqb_eq). destruct (str_eqb w k); reflexivity. Qed.

Lemma tally_nodup m w : NoDup (map fst m) -> tally m w = getc m w.
Proof.
  unfold tally, getc. induction m as [|[k v] m IH]; [reflexivity|]. intros ND.
  cbn in ND. inversion ND as [|a b NI ND']; subst. specialize (IH ND'). cbn.
  destruct (str_eqb w k) eqn:E; cbn.
  - apply str_eqb_eq in E. subst w.
    assert (Z0 : zsum (map (fun e => if str_eqb k (fst e) then snd e else 0) m) = 0).
    { clear - NI. induction m as [|[k' v'] m IH]; [reflexivity|]. cbn in *.
      destruct (str_eqb k k') eqn:E; [apply str_eqb_eq in E; subst; tauto|].
      unfold zsum in IH. rewrite IH by tauto. reflexivity. }
    unfold zsum in Z0. rewrite Z0. lia.
  - exact IH.
Qed.

Definition pos_entries (m : list (str * Z)) : Prop := forall e, In e m -> 0 < snd e.

Lemma add_counts_getc m : forall d w, getc (add_counts d m) w = getc d w + tally m w.
Proof.
  unfold add_counts, tally. induction m as [|[k v] m IH]; intros d w; cbn; [lia|].
  rewrite IH, getc_aset. unfold zsum.
  destruct (str_eqb w k) eqn:E; [|lia].
  apply str_eqb_eq in E. subst. unfold getc. destruct (aget str_eqb k d); lia.
Qed.

Lemma add_counts_pos m : forall d, positive_values d -> pos_entries m -> positive_values (add_counts d m).
Proof.
  unfold add_counts. induction m as [|[k v] m IH]; intros d P Q; cbn; [exact P|].
  apply IH.
  - intros w c. rewrite (ag_aset str_eqb str_eqb_eq).
    assert (0 < v) by (apply (Q (k, v)); now left).
    destruct (str_eqb w k).
    + destruct (aget str_eqb k d) as [c0|] eqn:E; intros [= <-]; [apply P in E; lia|exact H].
    + apply P.
  - intros e He. apply Q. now right.
Qed.

Lemma word_counts_gen toks : forall m,
  NoDup (map fst m) -> pos_entries m ->
  let m' := fold_left (fun m t => aset str_eqb t (match aget str_eqb t m with Some c => c | None => 0 end + 1) m) toks m in
  NoDup (map fst m') /\ pos_entries m' /\ forall w, getc m' w = getc m w + times w toks.
Proof.
  induction toks as [|t toks IH]; intros m ND P; cbn.
  - split; [exact ND|]. split; [exact P|]. intros w. lia.
  - assert (ND' : NoDup (map fst (aset str_eqb t (getc m t + 1) m))) by (apply (aset_nodup str_eqb str_eqb_eq); exact ND).
    assert (P' : pos_entries (aset str_eqb t (getc m t + 1) m)).
    { assert (V : 0 <= getc m t).
      { unfold getc. destruct (aget str_eqb t m) eqn:E; [|lia].
        apply (ag_in str_eqb str_eqb_eq) in E. apply P in E. cbn in E. lia. }
      assert (G : forall v, 0 < v -> pos_entries (aset str_eqb t v m)).
      { clear - P. intros v V. induction m as [|[k c] m IH]; cbn.
        - intros e [<-|[]]. exact V.
        - destruct (str_eqb t k); intros e [<-|H].
          + exact V.
          + apply P. now right.
          + apply P. now left.
          + apply IH; [|exact H]. intros e' H'. apply P. now right. }
      apply G. lia. }
    destruct (IH _ ND' P') as [H1 [H2 H3]]. split; [exact H1|]. split; [exact H2|].
    intros w. specialize (H3 w). rewrite getc_aset in H3.
    etransitivity; [exact H3|]. destruct (str_eqb w t) eqn:E; [apply str_eqb_eq in E; subst|]; lia.
Qed.

Lemma word_counts_spec toks :
  pos_entries (word_counts toks) /\ forall w, tally (word_counts toks) w = times w toks.
Proof.
  destruct (word_counts_gen toks []) as [H1 [H2 H3]]; [constructor|intros e []|].
  split; [exact H2|]. intros w. rewrite tally_nodup by exact H1. exact (H3 w).
Qed.

Lemma times_nonneg w l : 0 <= times w l.
Proof. induction l as [|x l IH]; cbn; [lia|]. destruct (str_eqb w x); lia. Qed.

(** ** Lines *)
Lemma split_on_length sep s :
  total_length (split_on sep s) + zlen (split_on sep s) = zlen s + 1.
Proof.
  unfold total_length, zlen. induction s as [|c s IH]; [reflexivity|]. cbn.
  destruct (c =? sep)%N.
  - cbn [map zsum fold_right length]. unfold zsum in IH. lia.
  - destruct (split_on sep s) as [|p ps]; cbn [map zsum fold_right length] in *; unfold zsum in *; lia.
Qed.

Lemma total_length_cons x l : total_length (x :: l) = zlen x + total_length l.
Proof. reflexivity. Qed.

Lemma total_length_app a b : total_length (a ++ b) = total_length a + total_length b.
Proof.
  induction a as [|x a IH]; [reflexivity|]. cbn [app]. rewrite !total_length_cons, IH. lia.
Qed.

Lemma drop_cr_length s : zlen (drop_cr s) <= zlen s.
Proof.
  unfold drop_cr, zlen. destruct (rev s) as [|c r] eqn:E; [lia|].
  assert (length s = S (length r)) by (rewrite <- (rev_length s), E; reflexivity).
  destruct (c =? CR)%N; [rewrite rev_length|]; lia.
Qed.

Lemma total_length_nonneg l : 0 <= total_length l.
Proof. induction l as [|x l IH]; [cbn; lia|]. rewrite total_length_cons. unfold zlen. lia. Qed.

Lemma split_on_nonempty sep s : split_on sep s <> [].
Proof. destruct s as [|c s]; cbn; [discriminate|]. destruct (c =? sep)%N; [discriminate|]. destruct (split_on sep s); discriminate. Qed.

Lemma text_lines_length file : total_length (text_lines file) <= zlen file.
Proof.
  unfold text_lines.
  assert (D : forall l, total_length (map drop_cr l) <= total_length l).
  { induction l as [|x l IH]; [cbn; lia|]. cbn [map]. rewrite !total_length_cons. pose proof (drop_cr_length x). lia. }
  pose proof (split_on_length NL file) as S0.
  assert (1 <= zlen (split_on NL file)).
  { unfold zlen. destruct (split_on NL file) eqn:E; [now apply split_on_nonempty in E|cbn; lia]. }
  destruct (rev (split_on NL file)) as [|[|c p] r] eqn:E.
  - specialize (D (split_on NL file)). lia.
  - specialize (D (rev r)).
    assert (E' : split_on NL file = (rev r ++ [[]])%list) by (rewrite <- (rev_involutive (split_on NL file)), E; reflexivity).
    rewrite E', total_length_app in S0. change (total_length [[]]) with 0 in S0. rewrite E' in H. lia.
  - specialize (D (split_on NL file)). lia.
Qed.

Lemma chunk_lines_fitting limit lines : forall cum,
  fst (chunk_lines limit lines cum) = fitting (limit - cum) lines.
Proof.
  induction lines as [|l lines IH]; intros cum; [reflexivity|]. cbn [chunk_lines fitting].
  destruct (Z.ltb_spec limit (cum + zlen l)); destruct (Z.leb_spec (zlen l) (limit - cum)); try lia; [reflexivity|].
  specialize (IH (cum + zlen l)). destruct (chunk_lines limit lines (cum + zlen l)) as [r c]. cbn in *.
  rewrite IH. do 2 f_equal. lia.
Qed.

Lemma fitting_all limit lines : total_length lines <= limit -> fitting limit lines = lines.
Proof.
  revert limit; induction lines as [|l lines IH]; intros limit H; [reflexivity|].
  rewrite total_length_cons in H.
  pose proof (total_length_nonneg lines). cbn [fitting].
  destruct (Z.leb_spec (zlen l) limit); [|lia]. f_equal. apply IH. lia.
Qed.

(** ** The messages of a chunk *)
Section Train.
  Context (words_of : str -> list str) (limit : Z).

  Definition msgs_tally (msgs : list (list (str * Z))) (w : str) : Z := zsum (map (fun m => tally m w) msgs).

  Lemma process_chunk_tally offset file w :
    msgs_tally (fst (process_chunk words_of limit offset file)) w
      = times_in_lines words_of w (fitting limit (text_lines (skipn (Z.to_nat offset) file))).
  Proof.
    unfold process_chunk. pose proof (chunk_lines_fitting limit (text_lines (skipn (Z.to_nat offset) file)) 0) as F.
    destruct (chunk_lines limit (text_lines (skipn (Z.to_nat offset) file)) 0) as [ls c]. cbn [fst] in *.
    rewrite Z.sub_0_r in F. rewrite <- F. unfold msgs_tally, times_in_lines. rewrite map_map. f_equal.
    apply map_ext. intros l. apply word_counts_spec.
  Qed.

  Lemma process_chunk_pos offset file :
    Forall pos_entries (fst (process_chunk words_of limit offset file)).
  Proof.
    unfold process_chunk. destruct (chunk_lines _ _ _) as [ls c]. cbn [fst].
    apply Forall_map, Forall_forall. intros l _. apply word_counts_spec.
  Qed.

  (** ** One worker per file *)
  Definition small (file : str) : Prop := zlen file <= limit.

  Definition file_count (w : str) (file : str) : Z := times_in_lines words_of w (text_lines file).

  Definition job_ok (j : job) : Prop :=
    small (j_file j) /\
    ((j_workers j = [] /\ j_file j = []) \/
     (j_workers j = [WStart] /\ j_current j = 0) \/
     (exists msgs ret, j_workers j = [WRun msgs ret] /\ Forall pos_entries msgs) \/
     j_workers j = [WEnded]).

  Definition pending (w : str) (j : job) : Z :=
    match j_workers j with
    | [WStart] => file_count w (j_file j)
    | [WRun msgs _] => msgs_tally msgs w
    | _ => 0
    end.

  Lemma zsum_upd {B} (f : B -> Z) l i x y :
    nth_error l i = Some x -> zsum (map f (upd l i y)) + f x = zsum (map f l) + f y.
  Proof.
    revert i; induction l as [|z l IH]; intros [|i] H; try discriminate; cbn in *.
    - injection H as ->. lia.
    - specialize (IH i H). unfold zsum in *. lia.
  Qed.

  Lemma Forall_upd {B} (P : B -> Prop) l i y : Forall P l -> P y -> Forall P (upd l i y).
  Proof.
    intros F Hy. revert i; induction F as [|z l Hz F IH]; intros [|i]; cbn; constructor; auto.
  Qed.

  Lemma chunk_num_small file : 0 < limit -> small file -> file <> [] -> chunk_num limit file = 1.
  Proof.
    unfold chunk_num, small. intros L S0 NE.
    assert (1 <= zlen file) by (unfold zlen; destruct file; [congruence|cbn; lia]).
    symmetry. apply Z.div_unique with (r := zlen file - 1); lia.
  Qed.

  Lemma new_job_ok file : 0 < limit -> small file -> job_ok (new_job limit file).
  Proof.
    intros L S0. split; [exact S0|]. unfold new_job. cbn [j_workers j_current j_file].
    destruct file as [|c f] eqn:E.
    - left. split; [|reflexivity]. unfold chunk_num.
      assert (Z0 : (zlen (@nil N) + limit - 1) / limit = 0) by (apply Z.div_small; cbn; lia).
      rewrite Z0. reflexivity.
    - right; left. rewrite chunk_num_small; [|exact L|exact S0|discriminate]. split; reflexivity.
  Qed.

  Lemma new_job_pending file w : 0 < limit -> small file -> pending w (new_job limit file) = file_count w file.
  Proof.
    intros L S0. unfold pending, new_job. cbn [j_workers j_file].
    destruct file as [|c f] eqn:E.
    - unfold chunk_num.
      assert (Z0 : (zlen (@nil N) + limit - 1) / limit = 0) by (apply Z.div_small; cbn; lia).
      rewrite Z0. reflexivity.
    - rewrite chunk_num_small; [|exact L|exact S0|discriminate]. reflexivity.
  Qed.

  Definition tinv (files : list str) (s : train_state) : Prop :=
    positive_values (fst s) /\ Forall job_ok (snd s) /\
    forall w, getc (fst s) w + zsum (map (pending w) (snd s)) = zsum (map (file_count w) files).

  Lemma tinv_start files : 0 < limit -> Forall small files -> tinv files ([], map (new_job limit) files).
  Proof.
    intros L F. split; [|split]; cbn [fst snd].
    - intros w c. discriminate.
    - induction F; cbn; constructor; auto using new_job_ok.
    - intros w. cbn. f_equal. rewrite map_map. clear - F L. induction F as [|f l Hf F IH]; [reflexivity|].
      cbn. rewrite IH, new_job_pending by assumption. reflexivity.
  Qed.

  Lemma tinv_step files s a s' : tinv files s -> train_step words_of limit s a = Some s' -> tinv files s'.
  Proof.
    destruct s as [d js]. destruct a as [f k]. unfold train_step. cbn [fst snd].
    intros [P [F T]]. cbn [fst snd] in *.
    destruct (nth_error js f) as [j|] eqn:Hj; [|discriminate].
    assert (J : job_ok j) by (rewrite Forall_forall in F; apply F; eapply nth_error_In; eassumption).
    destruct J as [Sm J]. unfold job_step.
    destruct J as [[W E]|[[W C]|[[msgs [ret [W PM]]]|W]]]; rewrite W.
    - destruct k; discriminate.
    - destruct k as [|k]; [|destruct k; discriminate]. cbn [nth_error upd].
      destruct (process_chunk words_of limit (j_current j) (j_file j)) as [msgs ret] eqn:PC. intros [= <-].
      assert (PM : Forall pos_entries msgs).
      { pose proof (process_chunk_pos (j_current j) (j_file j)) as H. rewrite PC in H. exact H. }
      split; [exact P|]. split; cbn [fst snd].
      + apply Forall_upd; [exact F|]. split; [exact Sm|]. right; right; left. exists msgs, ret. auto.
      + intros w. rewrite <- (T w). f_equal.
        pose proof (zsum_upd (pending w) js f j (Job (j_file j) (j_current j) [WRun msgs ret]) Hj) as U.
        assert (PE : pending w (Job (j_file j) (j_current j) [WRun msgs ret]) = pending w j).
        { unfold pending. rewrite W. cbn [j_workers].
          pose proof (process_chunk_tally (j_current j) (j_file j) w) as H. rewrite PC in H. cbn [fst] in H.
          rewrite H, C. cbn [skipn Z.to_nat]. rewrite fitting_all; [reflexivity|].
          etransitivity; [apply text_lines_length|exact Sm]. }
        lia.
    - destruct k as [|k]; [|destruct k; discriminate]. cbn [nth_error upd].
      destruct msgs as [|m msgs]; intros [= <-].
      + split; [exact P|]. split; cbn [fst snd].
        * apply Forall_upd; [exact F|]. split; [exact Sm|]. right; right; right. reflexivity.
        * intros w. rewrite <- (T w). f_equal.
          pose proof (zsum_upd (pending w) js f j (Job (j_file j) ret [WEnded]) Hj) as U.
          assert (PE : pending w j = 0) by (unfold pending; rewrite W; reflexivity).
          assert (PE' : pending w (Job (j_file j) ret [WEnded]) = 0) by reflexivity. lia.
      + inversion PM as [|a b Pm PM']; subst. split; [|split]; cbn [fst snd].
        * now apply add_counts_pos.
        * apply Forall_upd; [exact F|]. split; [exact Sm|]. right; right; left. exists msgs, ret. auto.
        * intros w. rewrite <- (T w), add_counts_getc.
          pose proof (zsum_upd (pending w) js f j (Job (j_file j) (j_current j) [WRun msgs ret]) Hj) as U.
          assert (PE : pending w j = tally m w + pending w (Job (j_file j) (j_current j) [WRun msgs ret])).
          { unfold pending. rewrite W. reflexivity. }
          lia.
    - destruct k as [|k]; [|destruct k]; discriminate.
  Qed.

  Lemma tinv_run files sched : forall s s', tinv files s -> train_run words_of limit sched s = Some s' -> tinv files s'.
  Proof.
    induction sched as [|a sched IH]; intros s s' I; cbn.
    - intros [= <-]. exact I.
    - destruct (train_step words_of limit s a) as [s1|] eqn:E; [|discriminate].
      apply IH. eapply tinv_step; eassumption.
  Qed.

  Lemma train_counts_small files sched dict :
    0 < limit -> (forall f, In f files -> zlen f <= limit) ->
    train_counts words_of limit files sched = Some dict ->
    counts_are dict (fun w => zsum (map (fun f => times_in_lines words_of w (text_lines f)) files)).
  Proof.
    intros L B. unfold train_counts.
    destruct (train_run words_of limit sched ([], map (new_job limit) files)) as [[d js]|] eqn:E; [|discriminate].
    destruct (forallb job_done js) eqn:D; [|discriminate]. intros [= <-].
    apply (tinv_run files) in E; [|apply tinv_start; [exact L|now apply Forall_forall]].
    destruct E as [P [F T]]. cbn [fst snd] in *. apply counts_are_getc; [exact P|].
    intros w. specialize (T w). unfold file_count in T. rewrite <- T.
    assert (Z0 : zsum (map (pending w) js) = 0); [|lia].
    clear - F D. induction F as [|j js [_ J] F IH]; [reflexivity|]. cbn in D.
    apply andb_true_iff in D as [D1 D2]. specialize (IH D2). cbn.
    change (fold_right Z.add 0 (map (pending w) js)) with (zsum (map (pending w) js)). rewrite IH.
    unfold pending. unfold job_done in D1.
    destruct J as [[W E]|[[W C]|[[msgs [ret [W PM]]]|W]]]; rewrite W in *; try reflexivity; discriminate.
  Qed.

  (** Progress: an unfinished worker can always take a step. *)
  Lemma train_progress d js :
    forallb job_done js = false -> exists a s', train_step words_of limit (d, js) a = Some s'.
  Proof.
    intros D.
    assert (G : exists f j, nth_error js f = Some j /\ job_done j = false).
    { induction js as [|j js IH]; [discriminate|]. cbn in D. destruct (job_done j) eqn:Dj.
      - destruct (IH D) as [f [j' H]]. exists (S f), j'. exact H.
      - exists 0%nat, j. auto. }
    destruct G as [f [j [Hj Dj]]].
    assert (G : exists k p, nth_error (j_workers j) k = Some p /\ p <> WEnded).
    { unfold job_done in Dj. induction (j_workers j) as [|p l IH]; [discriminate|]. cbn in Dj.
      destruct p.
      - exists 0%nat, WStart. split; [reflexivity|discriminate].
      - exists 0%nat, (WRun msgs ret). split; [reflexivity|discriminate].
      - destruct (IH Dj) as [k [p H]]. exists (S k), p. exact H. }
    destruct G as [k [p [Hp Np]]]. exists (f, k). unfold train_step. cbn [fst snd]. rewrite Hj. unfold job_step. rewrite Hp.
    destruct p as [|[|m msgs] ret|]; try congruence; try (eexists; reflexivity).
    destruct (process_chunk words_of limit (j_current j) (j_file j)). eexists. reflexivity.
  Qed.

  (** ** Several workers on one file, all started before one ends *)
  Lemma train_run_app s1 s2 : forall s,
    train_run words_of limit (s1 ++ s2) s
      = match train_run words_of limit s1 s with Some s' => train_run words_of limit s2 s' | None => None end.
  Proof.
    induction s1 as [|i l IH]; intros s; [reflexivity|]. cbn.
    destruct (train_step words_of limit s i); [apply IH|reflexivity].
  Qed.

  Lemma upd_middle {B} (a : list B) x y b : upd (a ++ x :: b) (length a) y = (a ++ y :: b)%list.
  Proof. induction a as [|z a IH]; [reflexivity|]. cbn. now rewrite IH. Qed.

  Lemma nth_error_middle {B} (a : list B) x b : nth_error (a ++ x :: b) (length a) = Some x.
  Proof. induction a as [|z a IH]; [reflexivity|]. exact IH. Qed.

  Lemma start_all file msgs ret : process_chunk words_of limit 0 file = (msgs, ret) ->
    forall n d ws,
    train_run words_of limit (map (pair 0%nat) (seq (length ws) n)) (d, [Job file 0 (ws ++ repeat WStart n)])
      = Some (d, [Job file 0 (ws ++ repeat (WRun msgs ret) n)]).
  Proof.
    intros PC n. induction n as [|n IH]; intros d ws; [reflexivity|].
    cbn [repeat seq map train_run]. unfold train_step. cbn [fst snd nth_error]. unfold job_step. cbn [j_workers j_current j_file].
    rewrite nth_error_middle, PC, upd_middle. cbn [upd].
    specialize (IH d (ws ++ [WRun msgs ret])%list). rewrite app_length in IH. cbn [length] in IH.
    rewrite Nat.add_1_r in IH. rewrite <- !app_assoc in IH. exact IH.
  Qed.

  Lemma finish_one file cur k ws p msgs : forall d ret,
    length ws = k ->
    train_run words_of limit (repeat (0%nat, k) (S (length msgs))) (d, [Job file cur (ws ++ WRun msgs ret :: p)])
      = Some (fold_left add_counts msgs d, [Job file ret (ws ++ WEnded :: p)]).
  Proof.
    induction msgs as [|m msgs IH]; intros d ret L; cbn [length]; remember (S _) as q eqn:Q; cbn [repeat train_run].
    - subst q. cbn [repeat train_run]. unfold train_step. cbn [fst snd nth_error]. unfold job_step. cbn [j_workers j_current j_file].
      subst k. rewrite nth_error_middle, upd_middle. reflexivity.
    - subst q. cbn [repeat train_run]. unfold train_step. cbn [fst snd nth_error]. unfold job_step. cbn [j_workers j_current j_file].
      subst k. rewrite nth_error_middle, upd_middle. cbn [upd fold_left]. apply IH. reflexivity.
  Qed.

  Fixpoint iter {B} (n : nat) (f : B -> B) (x : B) : B := match n with O => x | S n' => iter n' f (f x) end.

  Lemma finish_all file msgs ret : forall n d cur ws,
    exists cur', train_run words_of limit
      (flat_map (fun k => repeat (0%nat, k) (S (length msgs))) (seq (length ws) n))
      (d, [Job file cur (ws ++ repeat (WRun msgs ret) n)])
      = Some (iter n (fold_left add_counts msgs) d, [Job file cur' (ws ++ repeat WEnded n)]).
  Proof.
    induction n as [|n IH]; intros d cur ws; [exists cur; reflexivity|].
    cbn [seq flat_map iter].
    change (repeat (WRun msgs ret) (S n)) with (WRun msgs ret :: repeat (WRun msgs ret) n).
    rewrite train_run_app, (finish_one file cur (length ws) ws (repeat (WRun msgs ret) n) msgs d ret eq_refl).
    destruct (IH (fold_left add_counts msgs d) ret (ws ++ [WEnded])%list) as [cur' H].
    rewrite app_length in H. cbn [length] in H. rewrite Nat.add_1_r in H. rewrite <- !app_assoc in H.
    exists cur'. exact H.
  Qed.

  Lemma fold_msgs_getc msgs : forall d w, getc (fold_left add_counts msgs d) w = getc d w + msgs_tally msgs w.
  Proof.
    induction msgs as [|m msgs IH]; intros d w; cbn; [unfold msgs_tally; cbn; lia|].
    rewrite IH, add_counts_getc. unfold msgs_tally. cbn. unfold zsum. lia.
  Qed.

  Lemma fold_msgs_pos msgs : forall d, positive_values d -> Forall pos_entries msgs ->
    positive_values (fold_left add_counts msgs d).
  Proof.
    induction msgs as [|m msgs IH]; intros d P F; [exact P|]. inversion F; subst. cbn. apply IH; [|assumption].
    now apply add_counts_pos.
  Qed.

  Lemma train_counts_multiplied file :
    0 < limit ->
    exists sched dict, train_counts words_of limit [file] sched = Some dict /\
      counts_are dict (fun w => chunk_num limit file * times_in_lines words_of w (fitting limit (text_lines file))).
  Proof.
    intros L. set (n := Z.to_nat (chunk_num limit file)).
    destruct (process_chunk words_of limit 0 file) as [msgs ret] eqn:PC.
    destruct (finish_all file msgs ret n [] 0 []) as [cur' FA]. cbn [app length] in FA.
    pose proof (start_all file msgs ret PC n [] []) as SA. cbn [app length] in SA.
    assert (CN : chunk_num limit file = Z.of_nat n).
    { unfold n. rewrite Z2Nat.id; [reflexivity|]. unfold chunk_num. apply Z.div_pos; [unfold zlen; lia|exact L]. }
    assert (PM : Forall pos_entries msgs).
    { pose proof (process_chunk_pos 0 file) as H. rewrite PC in H. exact H. }
    assert (G : forall n d w, getc (iter n (fold_left add_counts msgs) d) w = getc d w + Z.of_nat n * msgs_tally msgs w).
    { clear - words_of limit. induction n as [|n IH]; intros d w; cbn [iter]; [lia|]. rewrite IH, fold_msgs_getc. lia. }
    assert (PV : forall n d, positive_values d -> positive_values (iter n (fold_left add_counts msgs) d)).
    { clear - words_of limit PM. induction n as [|n IH]; intros d P; cbn [iter]; [exact P|]. apply IH. now apply fold_msgs_pos. }
    eexists. exists (iter n (fold_left add_counts msgs) []). split.
    - unfold train_counts. cbn [map]. unfold new_job. fold n.
      erewrite train_run_app, SA, FA. cbn [forallb job_done j_workers].
      replace (forallb _ (repeat WEnded n)) with true; [reflexivity|].
      symmetry. clear. induction n as [|n IH]; [reflexivity|exact IH].
    - apply counts_are_getc.
      + apply PV. intros w c. discriminate.
      + intros w. rewrite G, CN. pose proof (process_chunk_tally 0 file w) as H. rewrite PC in H. cbn [fst skipn Z.to_nat] in H.
        change (getc [] w) with 0. rewrite H. lia.
  Qed.

  Lemma train_counts_doubled file :
    0 < limit -> total_length (text_lines file) <= limit -> limit < zlen file ->
    2 <= chunk_num limit file /\
    exists sched dict, train_counts words_of limit [file] sched = Some dict /\
      counts_are dict (fun w => chunk_num limit file * times_in_lines words_of w (text_lines file)).
  Proof.
    intros L T B. split.
    - unfold chunk_num. apply Z.div_le_lower_bound; lia.
    - destruct (train_counts_multiplied file L) as [sched [dict [H1 H2]]]. exists sched, dict. split; [exact H1|].
      rewrite fitting_all in H2 by exact T. exact H2.
  Qed.
End Train.
