From Verif Require Import Base Utf8Model BpeModel BpeTokProofs CacheModel.

(** What a thread running [prog] has to return, one result per call. *)
Definition expected (b : bpe) (prog : list call) : list (str * res (list token)) :=
  map (fun s => (s, bpe_tokenize b s)) (toks_of prog).

Lemma aget_aset_str {V} (m : list (str * V)) k v k' :
  aget str_eqb k' (aset str_eqb k v m) = if str_eqb k' k then Some v else aget str_eqb k' m.
Proof.
  induction m as [|[k0 v0] m IH]; cbn.
  - destruct (str_eqb k' k); reflexivity.
  - destruct (str_eqb k k0) eqn:E; cbn.
    + apply str_eqb_eq in E as ->. destruct (str_eqb k' k0); reflexivity.
    + destruct (str_eqb k' k0) eqn:E2.
      * apply str_eqb_eq in E2 as ->. destruct (str_eqb k0 k) eqn:E3; [|reflexivity].
        apply str_eqb_eq in E3 as ->. now rewrite str_eqb_refl in E.
      * apply IH.
Qed.

Lemma aset_length {V} (m : list (str * V)) k v :
  length m <= length (aset str_eqb k v m) <= S (length m).
Proof.
  induction m as [|[k0 v0] m IH]; cbn; [lia|]. destruct (str_eqb k k0); cbn; lia.
Qed.

Lemma fold_aset_length {V} (l : list (str * V)) : forall m,
  length (fold_left (fun m p => aset str_eqb (fst p) (snd p) m) l m) <= length l + length m.
Proof.
  induction l as [|[k v] l IH]; intros m; cbn; [lia|].
  specialize (IH (aset str_eqb k v m)). pose proof (aset_length m k v). lia.
Qed.

Lemma cache_set_bounded c values :
  (zlen (c_map c) <= Z.max 0 (c_cap c))%Z -> (zlen (c_map (cache_set c values)) <= Z.max 0 (c_cap c))%Z.
Proof.
  intros H. unfold cache_set. destruct (c_cap c <=? zlen (c_map c))%Z eqn:E; [exact H|]. cbn.
  pose proof (fold_aset_length (firstn (Z.to_nat (c_cap c - zlen (c_map c))) values) (c_map c)) as L.
  rewrite firstn_length in L. unfold zlen in *. lia.
Qed.

Lemma cache_set_cap c values : c_cap (cache_set c values) = c_cap c.
Proof. unfold cache_set. destruct (_ <=? _)%Z; reflexivity. Qed.

Section Inv.
  Variable b : bpe.
  Variable cap : Z.

  Definition cache_ok (c : cache) : Prop :=
    c_cap c = cap /\ (zlen (c_map c) <= Z.max 0 cap)%Z /\
    forall k w, cache_get c k = Some w -> length k <> 0 /\ merge_word b no_drop (enough k) k = Ok w.

  Definition pend_of (th : thread) : list str :=
    match th_pending th with Some (s, _) => [s] | None => [] end.

  Definition thread_ok (prog : list call) (th : thread) : Prop :=
    (forall s w, th_pending th = Some (s, w) ->
       length s <> 0 /\ merge_word b no_drop (enough s) s = Ok w) /\
    th_done th ++ map (fun s => (s, bpe_tokenize b s)) (pend_of th ++ toks_of (th_todo th))
      = expected b prog.

  Lemma tokenize_hit s w : length s <> 0 -> merge_word b no_drop (enough s) s = Ok w ->
    bpe_tokenize b s = Ok (word_to_tokens b w).
  Proof.
    intros Hs E. unfold bpe_tokenize. replace (length s =? 0) with false by lia. now rewrite E.
  Qed.

  Lemma cache_set_ok c s w : length s <> 0 -> merge_word b no_drop (enough s) s = Ok w ->
    cache_ok c -> cache_ok (cache_set c [(s, w)]).
  Proof.
    intros Hs E (H1 & H2 & H3). split; [now rewrite cache_set_cap|]. split.
    - rewrite <- H1 in H2 |- *. exact (cache_set_bounded c [(s, w)] H2).
    - intros k w0. unfold cache_set. destruct (c_cap c <=? zlen (c_map c))%Z eqn:Ec; [apply H3|].
      unfold cache_get. cbn [c_map].
      destruct (Z.to_nat (c_cap c - zlen (c_map c))) as [|n] eqn:En; [lia|]. rewrite firstn_cons, firstn_nil. cbn.
      rewrite aget_aset_str. destruct (str_eqb k s) eqn:Ek.
      + apply str_eqb_eq in Ek as ->. intros [= <-]. now split.
      + apply H3.
  Qed.

  Lemma cache_clear_ok c : cache_ok c -> cache_ok (cache_clear c).
  Proof.
    intros (H1 & H2 & H3). split; [exact H1|]. split; [cbn; unfold zlen; cbn; lia|]. intros k w. discriminate.
  Qed.

  Lemma thread_step_ok prog c th : cache_ok c -> thread_ok prog th ->
    cache_ok (fst (thread_step b c th)) /\ thread_ok prog (snd (thread_step b c th)).
  Proof.
    intros Hc [Hp Hd]. unfold thread_step.
    destruct (th_pending th) as [[s w]|] eqn:Ep.
    - destruct (Hp s w eq_refl) as [Hs Hw]. cbn [fst snd]. split; [now apply cache_set_ok|].
      split; [discriminate|]. unfold pend_of in *. rewrite Ep in Hd. cbn in *.
      rewrite <- Hd, <- app_assoc. cbn. now rewrite (tokenize_hit s w Hs Hw).
    - unfold pend_of in Hd. rewrite Ep in Hd. cbn [app] in Hd.
      destruct (th_todo th) as [|[s|] rest] eqn:Et.
      + cbn [fst snd]. split; [exact Hc|]. split.
        * intros s w. rewrite Ep. discriminate.
        * unfold pend_of. rewrite Ep, Et. exact Hd.
      + assert (Hd' : forall o, bpe_tokenize b s = o ->
                 th_done th ++ (s, o) :: map (fun s => (s, bpe_tokenize b s)) (toks_of rest) = expected b prog).
        { intros o <-. exact Hd. }
        assert (Hfin : forall o, bpe_tokenize b s = o ->
                  thread_ok prog (Thread rest None (th_done th ++ [(s, o)]))).
        { intros o Ho. split; [discriminate|]. cbn. rewrite <- app_assoc. now apply Hd'. }
        assert (Hz : length s =? 0 = true -> bpe_tokenize b s = Ok []).
        { intros E. unfold bpe_tokenize. now rewrite E. }
        destruct (length s =? 0) eqn:El; [cbn [fst snd]; split; [exact Hc|]; now apply Hfin, Hz|].
        destruct (cache_get c s) as [w|] eqn:Eg.
        { cbn [fst snd]. split; [exact Hc|]. apply Hfin.
          destruct Hc as (_ & _ & H3). destruct (H3 s w Eg). now apply tokenize_hit. }
        assert (Hn : forall o, merge_word b no_drop (enough s) s = o ->
                  bpe_tokenize b s = do w <- o; Ok (word_to_tokens b w)).
        { intros o Ho. unfold bpe_tokenize. now rewrite El, Ho. }
        destruct (merge_word b no_drop (enough s) s) as [w| | | |] eqn:Em; cbn [fst snd];
          (split; [exact Hc|]); try (apply Hfin; exact (Hn _ eq_refl)).
        split; cbn.
        * intros s' w' [= <- <-]. split; [lia|exact Em].
        * exact Hd.
      + cbn [fst snd]. split; [now apply cache_clear_ok|]. split; [discriminate|]. exact Hd.
  Qed.

  Lemma step_nth_ok : forall progs ths i c,
    cache_ok c -> Forall2 thread_ok progs ths ->
    cache_ok (fst (step_nth b c ths i)) /\ Forall2 thread_ok progs (snd (step_nth b c ths i)).
  Proof.
    intros progs ths. revert progs. induction ths as [|th ths IH]; intros progs i c Hc F;
      inversion F as [|prog ? progs' ? Ht F']; subst; cbn [step_nth].
    - split; [exact Hc|constructor].
    - destruct i as [|i].
      + destruct (thread_step_ok prog c th Hc Ht) as [H1 H2].
        destruct (thread_step b c th) as [c' th']. cbn in *. split; [exact H1|]. now constructor.
      + destruct (IH progs' i c Hc F') as [H1 H2].
        destruct (step_nth b c ths i) as [c' ths'']. cbn in *. split; [exact H1|]. now constructor.
  Qed.

  Lemma run_ok : forall sched progs c ths,
    cache_ok c -> Forall2 thread_ok progs ths ->
    cache_ok (fst (run_schedule b c ths sched)) /\
    Forall2 thread_ok progs (snd (run_schedule b c ths sched)).
  Proof.
    unfold run_schedule. induction sched as [|i sched IH]; intros progs c ths Hc F; [now split|].
    cbn [fold_left fst snd]. destruct (step_nth_ok progs ths i c Hc F) as [H1 H2].
    destruct (step_nth b c ths i) as [c' ths']. now apply IH.
  Qed.
End Inv.

Lemma concurrent_cache b cap c progs sched c' ths' :
  build_cache cap = Some c ->
  run_schedule b c (map start progs) sched = (c', ths') ->
  (zlen (c_map c') <= Z.max 0 cap)%Z /\
  Forall2 (fun prog th =>
    exists rest, map (fun s => (s, bpe_tokenize b s)) (toks_of prog) = th_done th ++ rest /\
      (th_todo th = [] /\ th_pending th = None -> rest = [])) progs ths'.
Proof.
  intros Hb E. unfold build_cache in Hb. destruct (cap =? 0)%Z; [discriminate|]. injection Hb as <-.
  assert (Hc : cache_ok b cap (new_cache cap)).
  { split; [reflexivity|]. split; [cbn; unfold zlen; cbn; lia|]. intros k w. discriminate. }
  assert (F : Forall2 (thread_ok b) progs (map start progs)).
  { clear. induction progs as [|p progs IH]; constructor; [|exact IH]. split; [discriminate|reflexivity]. }
  destruct (run_ok b cap sched progs _ _ Hc F) as [H1 H2]. rewrite E in H1, H2. cbn in H1, H2.
  split; [apply H1|]. clear -H2. induction H2 as [|p th ps ths [_ Hd] _ IH]; constructor; [|exact IH].
  unfold expected in Hd. rewrite <- Hd. eexists. split; [reflexivity|]. intros [Et Ep].
  unfold pend_of. rewrite Et, Ep. reflexivity.
Qed.

Lemma sequential_cached b c s c0 :
  cache_ok b (c_cap c0) c0 -> c = Some c0 ->
  tokenize_cached b c s = do t <- bpe_tokenize b s;
    Ok (t, Some (if (length s =? 0)%nat then c0 else
                 match cache_get c0 s, merge_word b no_drop (enough s) s with
                 | None, Ok w => cache_set c0 [(s, w)] | _, _ => c0 end)).
Proof.
  intros H ->. unfold tokenize_cached, bpe_tokenize. destruct (length s =? 0) eqn:E; [reflexivity|].
  destruct (cache_get c0 s) as [w|] eqn:Eg.
  - destruct H as (_ & _ & H). destruct (H s w Eg) as [_ ->]. reflexivity.
  - destruct (merge_word b no_drop (enough s) s); reflexivity.
Qed.

Lemma capacity_zero b s : s <> [] -> tokenize_cached b (build_cache 0) s = Panic.
Proof. intros H. unfold tokenize_cached. destruct s; [congruence|reflexivity]. Qed.
