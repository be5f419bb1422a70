(** Proofs about the file cache (C48). *)
From Verif Require Import Base BaseProofs FileCacheModel FileCacheSpec.
Open Scope Z_scope.

Lemma file_put p c s q : file (put_file p c s) q = if str_eqb q p then Some c else file s q.
Proof. unfold file, put_file. cbn [fs_files]. apply (ag_aset str_eqb str_eqb_eq). Qed.

Lemma file_remove p s q : q <> p -> file (remove_file p s) q = file s q.
Proof.
  intros N. unfold file, remove_file. cbn [fs_files]. induction (fs_files s) as [|[k v] l IH]; [reflexivity|]. cbn.
  destruct (str_eqb p k) eqn:E; cbn.
  - apply str_eqb_eq in E. subst k. destruct (str_eqb q p) eqn:F; [apply str_eqb_eq in F; contradiction|exact IH].
  - destruct (str_eqb q k); [reflexivity|exact IH].
Qed.

Lemma append_all_other p pieces : forall s t q, q <> p -> In t (append_all p pieces s) -> file t q = file s q.
Proof.
  induction pieces as [|x pieces IH]; intros s t q N; [intros []|]. cbn [append_all].
  set (s' := put_file _ _ s). intros [<-|H].
  - unfold s'. rewrite file_put. destruct (str_eqb q p) eqn:F; [apply str_eqb_eq in F; contradiction|reflexivity].
  - rewrite (IH s' t q N H). unfold s'. rewrite file_put. destruct (str_eqb q p) eqn:F; [apply str_eqb_eq in F; contradiction|reflexivity].
Qed.

Lemma append_all_last p pieces : forall s c, file s p = Some c ->
  file (last (append_all p pieces s) s) p = Some (c ++ concat pieces)%list /\
  forall q, q <> p -> file (last (append_all p pieces s) s) q = file s q.
Proof.
  induction pieces as [|x pieces IH]; intros s c H.
  - cbn. rewrite app_nil_r. auto.
  - cbn [append_all]. rewrite H. set (s' := put_file p (c ++ x)%list s).
    assert (Hs' : file s' p = Some (c ++ x)%list) by (unfold s'; rewrite file_put, str_eqb_refl; reflexivity).
    destruct (IH s' _ Hs') as [A B].
    assert (L : last (s' :: append_all p pieces s') s = last (append_all p pieces s') s').
    { destruct (append_all p pieces s') as [|y l] eqn:E; [reflexivity|].
      change (last (s' :: y :: l) s) with (last (y :: l) s). clear. revert y. induction l as [|z l IH]; intros y; [reflexivity|].
      change (last (y :: z :: l) s) with (last (z :: l) s). change (last (y :: z :: l) s') with (last (z :: l) s'). apply IH. }
    rewrite L. split.
    + rewrite A. cbn [concat]. now rewrite app_assoc.
    + intros q N. rewrite (B q N). unfold s'. rewrite file_put. destruct (str_eqb q p) eqn:F; [apply str_eqb_eq in F; contradiction|reflexivity].
Qed.

Section Cache.
  Context (root : str) (remote : str -> str -> option str).
  Notation name := (cached_name root).

  Lemma app_tmp_neq (p : str) : p <> (p ++ TMP)%list.
  Proof. intros H. apply (f_equal (@length N)) in H. rewrite app_length in H. cbn in H. lia. Qed.

  (** A name that is asked for is not that of a temporary file. *)
  Lemma plain_not_tmp m f p : plain_name f -> name m f <> (p ++ TMP)%list.
  Proof.
    intros P H. unfold cached_name, join in H.
    assert (G : forall (a f p : str), (a ++ SLASH :: f)%list = (p ++ TMP)%list -> exists x, f = (x ++ TMP)%list).
    { clear. intros a f p H.
      destruct (le_lt_dec (length TMP) (length f)) as [L|L].
      - exists (firstn (length f - length TMP) f).
        assert (E : skipn (length f - length TMP) f = TMP).
        { apply (f_equal (fun l => skipn (length l - length TMP) l)) in H.
          rewrite !app_length in H. cbn [length] in H.
          replace (length p + length TMP - length TMP)%nat with (length p) in H by lia.
          rewrite (skipn_app (length p)), skipn_all, Nat.sub_diag in H. cbn [app] in H. change (skipn 0 TMP) with TMP in H.
          rewrite skipn_app in H. rewrite skipn_all2 in H by lia. cbn [app] in H.
          replace (length a + S (length f) - length TMP - length a)%nat with (S (length f - length TMP)) in H by lia.
          cbn [skipn] in H. exact H. }
        rewrite <- E at 2. symmetry. apply firstn_skipn.
      - exfalso. assert (I : In SLASH TMP).
        { apply (f_equal (fun l => skipn (length l - length TMP) l)) in H.
          rewrite !app_length in H. cbn [length] in H.
          replace (length p + length TMP - length TMP)%nat with (length p) in H by lia.
          rewrite (skipn_app (length p)), skipn_all, Nat.sub_diag in H. cbn [app] in H. change (skipn 0 TMP) with TMP in H.
          rewrite <- H. rewrite skipn_app. apply in_or_app. right.
          replace (length a + S (length f) - length TMP - length a)%nat with 0%nat by lia. now left. }
        cbn in I. unfold SLASH in I. repeat (destruct I as [I|I]; [discriminate|]). exact I. }
    rewrite app_comm_cons, app_assoc in H. apply G in H as [x H]. exact (P x H).
  Qed.

  Lemma download_trace w p s t r :
    download w p s = (t, r) ->
    (forall s', In s' t ->
       (forall q, q <> p -> q <> (p ++ TMP)%list -> file s' q = file s q) /\
       (file s' p = file s p \/
        exists pieces, w_reply w = Some (200, pieces, true) /\ file s' p = Some (concat pieces))) /\
    (forall q, r = Ok q -> q = p /\ exists pieces s', w_reply w = Some (200, pieces, true) /\ last t s = s' /\
       file s' p = Some (concat pieces)).
  Proof.
    unfold download. set (d := dir_of p). set (tmp := (p ++ TMP)%list).
    assert (Nt : p <> tmp) by apply app_tmp_neq.
    destruct (negb (has_dir s d) && negb (w_mkdir w)).
    { intros [= <- <-]. split; [|discriminate]. intros s' [<-|[]]. auto. }
    set (s1 := if has_dir s d then s else add_dir d s).
    assert (F1 : forall q, file s1 q = file s q) by (intros q; unfold s1; destruct (has_dir s d); reflexivity).
    assert (OK1 : forall s', s' = s \/ s' = s1 ->
       (forall q, q <> p -> q <> tmp -> file s' q = file s q) /\
       (file s' p = file s p \/ exists pieces, w_reply w = Some (200, pieces, true) /\ file s' p = Some (concat pieces))).
    { intros s' [->| ->]; split; auto. }
    destruct (negb (w_create w)).
    { intros [= <- <-]. split; [|discriminate]. intros s' [<-|[<-|[]]]; apply OK1; auto. }
    set (s2 := put_file tmp [] s1).
    assert (F2 : forall q, q <> tmp -> file s2 q = file s q).
    { intros q N. unfold s2. rewrite file_put. destruct (str_eqb q tmp) eqn:E; [apply str_eqb_eq in E; contradiction|apply F1]. }
    assert (OK2 : forall s', s' = s \/ s' = s1 \/ s' = s2 ->
       (forall q, q <> p -> q <> tmp -> file s' q = file s q) /\
       (file s' p = file s p \/ exists pieces, w_reply w = Some (200, pieces, true) /\ file s' p = Some (concat pieces))).
    { intros s' [->|[->| ->]]; [apply OK1; auto|apply OK1; auto|]. split; [auto|left; auto]. }
    destruct (w_reply w) as [[[status pieces] ended]|] eqn:Ew.
    2:{ intros [= <- <-]. split; [|discriminate]. intros s' [<-|[<-|[<-|[]]]]; apply OK2; auto. }
    destruct (Z.eqb_spec status 200) as [->|Ns]; cbn [negb].
    2:{ intros [= <- <-]. split; [|discriminate]. intros s' [<-|[<-|[<-|[]]]]; apply OK2; auto. }
    set (mid := append_all tmp pieces s2).
    assert (OK3 : forall s', s' = s \/ s' = s1 \/ s' = s2 \/ In s' mid ->
       (forall q, q <> p -> q <> tmp -> file s' q = file s q) /\
       (file s' p = file s p \/ exists pieces0, Some (200, pieces, ended) = Some (200, pieces0, true) /\ file s' p = Some (concat pieces0))).
    { intros s' [H|[H|[H|H]]]; [apply OK2; auto|apply OK2; auto|apply OK2; auto|].
      split; [|left].
      - intros q N1 N2. rewrite (append_all_other tmp pieces s2 s' q N2 H). auto.
      - rewrite (append_all_other tmp pieces s2 s' p Nt H). auto. }
    assert (T2 : file s2 tmp = Some []) by (unfold s2; rewrite file_put, str_eqb_refl; reflexivity).
    destruct (append_all_last tmp pieces s2 [] T2) as [L1 L2].
    destruct ended; cbn [negb].
    2:{ intros [= <- <-]. split; [|discriminate]. intros s' [H|[H|[H|H]]]; apply OK3; auto. }
    destruct (w_rename w); cbn [negb].
    2:{ intros [= <- <-]. split; [|discriminate]. intros s' [H|[H|[H|H]]]; apply OK3; auto. }
    set (s4 := put_file p _ _).
    assert (F4 : file s4 p = Some (concat pieces)).
    { unfold s4. rewrite file_put, str_eqb_refl. fold mid in L1. rewrite L1. reflexivity. }
    intros [= <- <-]. split.
    - intros s' [H|[H|[H|H]]]; [apply OK3; auto|apply OK3; auto|apply OK3; auto|].
      apply in_app_or in H as [H|[<-|[]]]; [apply OK3; auto|]. split.
      + intros q N1 N2. unfold s4. rewrite file_put. destruct (str_eqb q p) eqn:E; [apply str_eqb_eq in E; contradiction|].
        rewrite file_remove by exact N2. fold mid in L2. rewrite (L2 q N2). auto.
      + right. exists pieces. auto.
    - intros q [= <-]. split; [reflexivity|]. exists pieces, s4. split; [reflexivity|]. split; [|exact F4].
      change (s :: s1 :: s2 :: mid ++ [s4])%list with ((s :: s1 :: s2 :: mid) ++ [s4])%list. apply last_last.
  Qed.

  Lemma history_complete s : history root remote s ->
    forall m f c, plain_name f -> file s (name m f) = Some c -> complete root remote (name m f) c.
  Proof.
    induction 1 as [s H|s w m f t r s' H IH P L Ho E I]; [exact H|].
    intros m0 f0 c P0 Hc. unfold cached_path in E.
    destruct (file s (name m f)) as [c0|] eqn:Ef.
    { injection E as <- <-. destruct I as [<-|[]]. eauto. }
    rewrite L in E. destruct (w_probe w).
    2:{ injection E as <- <-. destruct I as [<-|[]]. eauto. }
    apply download_trace in E as [T _]. destruct (T s' I) as [T1 T2].
    destruct (str_eq_dec (name m0 f0) (name m f)) as [Eq|Ne].
    - rewrite Eq in *. destruct T2 as [T2|[pieces [W T2]]]; [congruence|].
      assert (c = concat pieces) by congruence. subst c. exists m, f. split; [reflexivity|]. apply Ho. exact W.
    - rewrite T1 in Hc; [eauto|exact Ne|]. now apply plain_not_tmp.
  Qed.

  Lemma history_serves s w m f t p : history root remote s -> plain_name f -> file s (join m f) = None -> honest remote w m f ->
    cached_path root w m f s = (t, Ok p) ->
    p = name m f /\ exists c, file (last t s) p = Some c /\ complete root remote p c.
  Proof.
    intros H P L Ho E. pose proof E as E0. unfold cached_path in E.
    destruct (file s (name m f)) as [c0|] eqn:Ef.
    { injection E as <- <-. split; [reflexivity|]. exists c0. split; [exact Ef|]. eapply history_complete; eassumption. }
    rewrite L in E. destruct (w_probe w); [|discriminate].
    apply download_trace in E as [_ T]. destruct (T p eq_refl) as [-> [pieces [s' [W [El F]]]]].
    split; [reflexivity|]. exists (concat pieces). rewrite El. split; [exact F|]. exists m, f. split; [reflexivity|]. apply Ho. exact W.
  Qed.

  (** A local file: a crash right after the cached file has been created. *)
  Lemma copy_crash w m f s c : file s (name m f) = None -> file s (join m f) = Some c ->
    w_local w = true -> w_create w = true -> has_dir s (dir_of (name m f)) = true ->
    exists s' t r, cached_path root w m f s = (t, r) /\ In s' t /\ file s' (name m f) = Some [] /\
      forall w', cached_path root w' m f s' = ([s'], Ok (name m f)).
  Proof.
    intros N L W1 W2 D. set (s' := put_file (name m f) [] s). exists s'.
    assert (F : file s' (name m f) = Some []) by (unfold s'; rewrite file_put, str_eqb_refl; reflexivity).
    unfold cached_path at 1. rewrite N, L. unfold copy_file. rewrite W1, W2, D. cbn [negb andb].
    eexists _, _. split; [reflexivity|]. split; [right; left; reflexivity|]. split; [exact F|].
    intros w'. unfold cached_path. rewrite F. reflexivity.
  Qed.

  (** ... or in the middle of the copying. *)
  Lemma copy_crash_piece w m f s c a b : file s (name m f) = None -> file s (join m f) = Some c ->
    w_local w = true -> w_create w = true -> has_dir s (dir_of (name m f)) = true ->
    w_pieces w = (a ++ b)%list ->
    exists s' t r, cached_path root w m f s = (t, r) /\ In s' t /\ file s' (name m f) = Some (concat a) /\
      forall w', cached_path root w' m f s' = ([s'], Ok (name m f)).
  Proof.
    intros N L W1 W2 D Ew. set (s1 := put_file (name m f) [] s).
    assert (F1 : file s1 (name m f) = Some []) by (unfold s1; rewrite file_put, str_eqb_refl; reflexivity).
    exists (last (append_all (name m f) a s1) s1).
    destruct (append_all_last (name m f) a s1 [] F1) as [A _].
    unfold cached_path at 1. rewrite N, L. unfold copy_file. rewrite W1, W2, D. cbn [negb andb]. fold s1.
    eexists _, _. split; [reflexivity|]. split.
    - rewrite Ew. assert (G : forall p a b s, In (last (append_all p a s) s) (s :: append_all p (a ++ b) s)).
      { clear. intros p a. induction a as [|x a IH]; intros b s; [now left|]. cbn [append_all app].
        set (s' := put_file p _ s). right. specialize (IH b s').
        assert (E : last (s' :: append_all p a s') s = last (append_all p a s') s').
        { destruct (append_all p a s') as [|y l]; [reflexivity|]. change (last (s' :: y :: l) s) with (last (y :: l) s).
          clear. revert y. induction l as [|z l IH]; intros y; [reflexivity|].
          change (last (y :: z :: l) s) with (last (z :: l) s). change (last (y :: z :: l) s') with (last (z :: l) s'). apply IH. }
        rewrite E. exact IH. }
      right. apply G.
    - split; [exact A|]. intros w'. unfold cached_path. rewrite A. reflexivity.
  Qed.

  Lemma copy_no_dir w m f s c : file s (name m f) = None -> file s (join m f) = Some c ->
    has_dir s (dir_of (name m f)) = false -> cached_path root w m f s = ([s], Err).
  Proof.
    intros N L D. unfold cached_path. rewrite N, L. unfold copy_file. rewrite D, andb_false_r. now destruct (w_local w).
  Qed.

  Lemma name_tmp m f : name m (f ++ TMP) = (name m f ++ TMP)%list.
  Proof. unfold cached_name, join. rewrite <- !app_assoc. cbn [app]. rewrite <- app_assoc. reflexivity. Qed.

  (** The temporary file of a broken download is served under its own name. *)
  Lemma tmp_served w m f s pieces : file s (name m f) = None -> file s (join m f) = None ->
    w_probe w = true -> w_create w = true -> (has_dir s (dir_of (name m f)) = true \/ w_mkdir w = true) ->
    w_reply w = Some (200, pieces, false) ->
    exists t, cached_path root w m f s = (t, Err) /\ let s' := last t s in
      file s' (name m (f ++ TMP)) = Some (concat pieces) /\
      forall w', cached_path root w' m (f ++ TMP) s' = ([s'], Ok (name m (f ++ TMP))).
  Proof.
    intros N L W1 W2 D Ew. unfold cached_path at 1. rewrite N, L, W1. unfold download. rewrite W2, Ew. cbn [negb Z.eqb Pos.eqb].
    assert (E : negb (has_dir s (dir_of (name m f))) && negb (w_mkdir w) = false).
    { destruct D as [-> | ->]; [reflexivity|]. now rewrite andb_false_r. }
    rewrite E. cbv zeta. set (s1 := if has_dir s _ then s else _).
    set (tmp := (name m f ++ TMP)%list). set (s2 := put_file tmp [] s1).
    assert (T2 : file s2 tmp = Some []) by (unfold s2; rewrite file_put, str_eqb_refl; reflexivity).
    destruct (append_all_last tmp pieces s2 [] T2) as [A _].
    eexists. split; [reflexivity|]. rewrite name_tmp. fold tmp.
    assert (G : forall l : list fs, last (s :: s1 :: s2 :: l) s = last l s2).
    { clear. intros l. change (last (s :: s1 :: s2 :: l) s) with (last (s2 :: l) s). destruct l as [|y l]; [reflexivity|].
      change (last (s2 :: y :: l) s) with (last (y :: l) s). revert y. induction l as [|z l IH]; intros y; [reflexivity|].
      change (last (y :: z :: l) s) with (last (z :: l) s). change (last (y :: z :: l) s2) with (last (z :: l) s2). apply IH. }
    rewrite G. split; [exact A|]. intros w'. unfold cached_path. rewrite name_tmp. fold tmp. rewrite A. reflexivity.
  Qed.

  (** Two different requests share a cached name. *)
  Lemma name_collision a b c : name (join a b) c = name a (join b c).
  Proof. unfold cached_name, join. rewrite <- !app_assoc. reflexivity. Qed.
End Cache.
