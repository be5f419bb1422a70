(** Building BPE models (C90). *)
From Coq Require Import QArith Permutation.
From Verif Require Import Base BaseProofs BpeModel BpeTokProofs BpeSaveModel WordPieceTrainSpec BpeBuildModel BpeBuildSpec.
Open Scope Z_scope.
Open Scope list_scope.

Lemma last_set_snoc {A B} (f : A -> option B) ops : forall d o, last_set f d (ops ++ [o]) = match f o with Some x => x | None => last_set f d ops end.
Proof. induction ops as [|a ops IH]; intros d o; cbn [app last_set]; [reflexivity|apply IH]. Qed.

Section Build.
  Variable vf : str -> res vocab.
  Variable tf : str -> res str.
  Variable order : vocab -> vocab.
  Hypothesis HO : forall v, Permutation (order v) v.
  Local Notation build := (bb_build vf tf order).
  Local Notation run := (bb_run vf tf order).

  Lemma built_state c : fst (build c) = c \/
    exists v m, bb_files c <> None /\ fst (build c) = BB (bb_files c) v m (bb_cache c) (bb_dropout c) (bb_unk c) (bb_prefix c) (bb_suffix c).
  Proof.
    unfold bb_build. destruct (match bb_dropout c with Some p => _ | None => false end); [now left|]. destruct (bb_files c) as [[a b]|]; [|now left].
    destruct (read_files vf tf a b) as [[v m]| | | |]; [right|now left|now left|now left|now left]. exists v, m. split; [discriminate|reflexivity].
  Qed.
  Lemma run_state ops : let c := run ops in
    bb_files c = last_set g_files None ops /\ bb_cache c = last_set g_cache 10000 ops /\ bb_dropout c = last_set g_dropout None ops /\ bb_unk c = last_set g_unk None ops /\
    bb_prefix c = last_set g_prefix None ops /\ bb_suffix c = last_set g_suffix None ops /\ (bb_files c = None -> (bb_vocab c, bb_merges c) = last_set g_tables ([], []) ops).
  Proof.
    cbv zeta. induction ops as [|o ops IH] using rev_ind; [repeat split|]. unfold bb_run in *. rewrite fold_left_app. cbn [fold_left]. set (c := fold_left (bb_step vf tf order) ops bb_new) in *.
    rewrite !last_set_snoc. destruct IH as (I1 & I2 & I3 & I4 & I5 & I6 & I7).
    destruct o; cbn [bb_step g_files g_tables g_cache g_dropout g_unk g_prefix g_suffix bb_files bb_vocab bb_merges bb_cache bb_dropout bb_unk bb_prefix bb_suffix]; try (repeat split; assumption).
    - repeat split; try assumption. discriminate.
    - destruct (built_state c) as [-> |(v & m & Hf & ->)]; [repeat split; assumption|]. cbn [bb_files bb_vocab bb_merges bb_cache bb_dropout bb_unk bb_prefix bb_suffix]. repeat split; try assumption. intros H. contradiction.
  Qed.
  Lemma refused p : at_most_0 p || above_1 p = false <-> probability p \/ p = NaN.
  Proof.
    destruct p as [q| |n]; cbn [at_most_0 above_1 probability].
    - rewrite orb_false_iff, negb_false_iff, Qle_bool_iff. split.
      + intros [H1 H2]. left. split; [|exact H2]. apply Qnot_le_lt. intros H. apply Qle_bool_iff in H. congruence.
      + intros [[H1 H2]|H]; [|discriminate]. split; [|exact H2]. apply not_true_is_false. intros H. apply Qle_bool_iff in H. exact (Qlt_not_le _ _ H1 H).
    - split; [intros _; now right|reflexivity].
    - destruct n; cbn; (split; [discriminate|intros [[]|H]; discriminate]).
  Qed.
  Lemma reversed v : reverses v (build_vocab_r (order v)).
  Proof.
    destruct (build_vocab_r_spec (order v) []) as [K1 K2]. split.
    - intros i s H. destruct (K1 i s H) as [K|K]; [exact (Permutation_in _ (HO v) K)|discriminate].
    - intros s i H. apply (Permutation_in _ (Permutation_sym (HO v))) in H. specialize (K2 i (or_introl (ex_intro _ s H))). unfold build_vocab_r. destruct (vrget i _) as [x|]; [now exists x|congruence].
  Qed.
  Lemma built_ok ops b : snd (build (run ops)) = Ok b ->
    (forall p, last_set g_dropout None ops = Some p -> probability p \/ p = NaN) /\
    exists v m, tables_of vf tf ops v m /\ has_settings ops v m b /\ reverses v (b_vocab_r (bt_bpe b)).
  Proof.
    destruct (run_state ops) as (I1 & I2 & I3 & I4 & I5 & I6 & I7). set (c := run ops) in *. unfold bb_build. unfold tables_of, has_settings. rewrite <- I1, <- I2, <- I3, <- I4, <- I5, <- I6.
    destruct (match bb_dropout c with Some p => _ | None => false end) eqn:Ed; [discriminate|]. intros H.
    split; [intros p Hp; rewrite Hp in Ed; now apply refused|]. destruct (bb_files c) as [[a f]|].
    - unfold read_files in H. destruct (vf a) as [v| | | |] eqn:Ev; cbn [bind] in H; try discriminate. destruct (tf f) as [s| | | |] eqn:Es; cbn [bind] in H; try discriminate.
      destruct (read_merges v s) as [m| | | |] eqn:Em; cbn [bind] in H; try discriminate. cbn [snd] in H. injection H as <-. exists v, m. split; [split; [exact Ev|now exists s]|]. cbn. split; [repeat split|]. apply reversed.
    - cbn [snd] in H. injection H as <-. exists (bb_vocab c), (bb_merges c). split; [now symmetry; apply I7|]. cbn. split; [repeat split|]. apply reversed.
  Qed.
  Lemma builds ops v m : (forall p, last_set g_dropout None ops = Some p -> probability p \/ p = NaN) -> tables_of vf tf ops v m -> exists b, snd (build (run ops)) = Ok b.
  Proof.
    destruct (run_state ops) as (I1 & I2 & I3 & I4 & I5 & I6 & I7). set (c := run ops) in *. unfold tables_of, bb_build. rewrite <- I1, <- I3. intros Hd Ht.
    assert (Ed : match bb_dropout c with Some p => at_most_0 p || above_1 p | None => false end = false) by (destruct (bb_dropout c) as [p|]; [apply refused, Hd; reflexivity|reflexivity]). rewrite Ed.
    destruct (bb_files c) as [[a f]|]; [|eexists; reflexivity]. destruct Ht as (Ev & s & Es & Em). unfold read_files. rewrite Ev. cbn [bind]. rewrite Es. cbn [bind]. rewrite Em. eexists. reflexivity.
  Qed.
  Lemma errs ops : snd (build (run ops)) = Err <->
    (exists p, last_set g_dropout None ops = Some p /\ ~ probability p /\ p <> NaN) \/
    ((forall p, last_set g_dropout None ops = Some p -> probability p \/ p = NaN) /\
     exists a f, last_set g_files None ops = Some (a, f) /\ (vf a = Err \/ exists v, vf a = Ok v /\ (tf f = Err \/ exists s, tf f = Ok s /\ read_merges v s = Err))).
  Proof.
    destruct (run_state ops) as (I1 & I2 & I3 & I4 & I5 & I6 & I7). set (c := run ops) in *. rewrite <- I1, <- I3. unfold bb_build.
    destruct (match bb_dropout c with Some p => at_most_0 p || above_1 p | None => false end) eqn:Ed.
    - split; [intros _; left|reflexivity]. destruct (bb_dropout c) as [p|]; [|discriminate]. exists p. split; [reflexivity|]. assert (N : ~ (probability p \/ p = NaN)) by (intros X; apply refused in X; congruence). tauto.
    - assert (Hd : forall p, bb_dropout c = Some p -> probability p \/ p = NaN) by (intros p Hp; rewrite Hp in Ed; now apply refused).
      assert (Nd : ~ exists p, bb_dropout c = Some p /\ ~ probability p /\ p <> NaN) by (intros (p & Hp & N1 & N2); destruct (Hd p Hp); tauto).
      destruct (bb_files c) as [[a f]|]; [|split; [discriminate|intros [H|(_ & a & f & H & _)]; [contradiction|discriminate]]].
      split.
      + intros H. right. split; [exact Hd|]. exists a, f. split; [reflexivity|]. unfold read_files in H. destruct (vf a) as [v| | | |]; cbn [bind snd] in H; try discriminate; [|now left]. right. exists v. split; [reflexivity|].
        destruct (tf f) as [s| | | |]; cbn [bind snd] in H; try discriminate; [|now left]. right. exists s. split; [reflexivity|]. now destruct (read_merges v s) as [m| | | |]; cbn [bind snd] in H.
      + intros [H|(_ & a' & f' & X & H)]; [contradiction|]. injection X as <- <-. unfold read_files. destruct H as [-> |(v & -> & [-> |(s & -> & E)])]; cbn [bind]; [reflexivity|reflexivity|]. now rewrite E.
  Qed.
  Lemma files_win ops v m : last_set g_files None ops <> None -> snd (build (run (ops ++ [BTables v m]))) = snd (build (run ops)).
  Proof.
    intros H. destruct (run_state ops) as (I1 & _). rewrite <- I1 in H. unfold bb_run in *. rewrite fold_left_app. cbn [fold_left]. set (c := fold_left (bb_step vf tf order) ops bb_new) in *.
    unfold bb_build. cbn [bb_step bb_files bb_vocab bb_merges bb_cache bb_dropout bb_unk bb_prefix bb_suffix]. destruct (match bb_dropout c with Some p => _ | None => false end); [reflexivity|]. destruct (bb_files c) as [[a f]|]; [|congruence].
    now destruct (read_files vf tf a f) as [[v' m']| | | |].
  Qed.
End Build.
